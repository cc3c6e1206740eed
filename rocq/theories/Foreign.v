(** The library on cores that others wrote. *)
From Coq.Strings Require Import Byte.
From Coq Require Import Lia Sorting.Sorted.
From stdpp Require Import prelude gmap.
From Verif Require Import Bytes Codec Model CodecProofs Order Wp Store Tree Iter Read Zip Pure Seq Mut MutDel MutTop Commit Spec Found OrderProofs Client Abs Api Call Det Hist Play Main Shape Own Demo.

(** ** The tree in such a core *)
Fixpoint grow (n : nat) (C : list bytes) (r : ref) : tree :=
  match n, cnode C r with
  | S n', Some nd => Nd r (n_keys nd) (map (grow n' C) (n_children nd))
  | _, _ => Nd r [] []
  end.
Lemma tref_grow n C r : tref (grow n C r) = r.
Proof. destruct n; [done|]. cbn. by destruct (cnode C r). Qed.

Lemma mapM_all {A B} (f : A -> option B) l k : mapM f l = Some k -> forall x, x ∈ l -> exists y, f x = Some y.
Proof.
  intros H x Hx. apply mapM_Some in H. apply elem_of_list_lookup in Hx as [i Hi]. destruct (Forall2_lookup_l _ _ _ _ _ H Hi) as (y & _ & Hy). eauto.
Qed.
Lemma mapM_eq {A B} (f : A -> option B) (g : A -> B) l k : mapM f l = Some k -> (forall x y, x ∈ l -> f x = Some y -> y = g x) -> k = map g l.
Proof.
  intros H%mapM_Some. induction H as [|x y l k Hxy _ IH]; intros Hg; [done|]. cbn. f_equal; [apply Hg; [by left|done]|]. apply IH.
  intros x' y' Hx'. apply Hg. by right.
Qed.

Lemma read_grow n C : forall r t, read_tree n C r = Some t ->
  (forall u, u ∈ subs (grow n C r) -> cnode C (tref u) = Some (node_of u)) /\
  (forall u k, u ∈ subs (grow n C r) -> k ∈ tkeys u -> is_Some (blk C k)) /\ t = erase C (grow n C r).
Proof.
  induction n as [|n IH]; intros r t Ht; [done|]. cbn [read_tree] in Ht. rewrite block_at_blk in Ht.
  destruct (blk C (fst r)) as [b|] eqn:Eb; [|done]. cbn in Ht. destruct (b_nodes b !! snd r) as [nd|] eqn:En; [|done]. cbn in Ht.
  destruct (mapM _ (n_keys nd)) as [ks|] eqn:Ek; [|done]. cbn in Ht. destruct (mapM _ (n_children nd)) as [ts|] eqn:Ec; [|done]. injection Ht as <-.
  assert (forall c, c ∈ n_children nd -> exists t, read_tree n C c = Some t) as Hc by (intros c Hc; by eapply mapM_all in Ec).
  assert (cnode C r = Some nd) as Hn by (unfold cnode; by rewrite Eb). cbn [grow]. rewrite Hn.
  split_and!.
  - intros u [->|(c & Hcc & Hu)]%elem_of_subs.
    + cbn [tref]. rewrite Hn. unfold node_of. cbn. rewrite map_map. f_equal. destruct nd as [a l]. cbn. f_equal. clear.
      induction l as [|x l IHl]; [done|]. cbn. by rewrite tref_grow, <-IHl.
    + apply elem_of_list_fmap in Hcc as (r' & -> & Hr). destruct (Hc r' Hr) as [t' Ht']. by eapply IH.
  - intros u k [->|(c & Hcc & Hu)]%elem_of_subs Hk.
    + cbn in Hk. destruct (mapM_all _ _ _ Ek k Hk) as [y Hy]. rewrite block_at_blk in Hy. by destruct (blk C k).
    + apply elem_of_list_fmap in Hcc as (r' & -> & Hr). destruct (Hc r' Hr) as [t' Ht']. by eapply IH.
  - cbn [erase]. f_equal.
    + eapply mapM_eq; [done|]. intros q y _ Hy. cbn beta in Hy. rewrite block_at_blk in Hy. unfold keyof. destruct (blk C q) as [b'|] eqn:E; [|done]. injection Hy as <-.
      by rewrite (kd_key _ _ _ E).
    + rewrite map_map. eapply mapM_eq; [done|]. intros r' y _ Hy. by apply IH in Hy as (_ & _ & ->).
Qed.

Lemma entries_grow n C : forall r m, read_entries n C r = Some m -> m = map (kd C) (flat (grow n C r)).
Proof.
  induction n as [|n IH]; intros r m Hm; [done|]. cbn [read_entries grow] in *. rewrite block_at_blk in Hm. unfold cnode.
  destruct (blk C (fst r)) as [b|] eqn:Eb; [|done]. cbn in Hm. destruct (b_nodes b !! snd r) as [nd|] eqn:En; [|done]. cbn in Hm.
  destruct (mapM _ (n_keys nd)) as [ks|] eqn:Ek; [|done]. cbn in Hm. destruct (mapM _ (n_children nd)) as [ts|] eqn:Ec; [|done]. injection Hm as <-.
  rewrite interleave_inter. cbn [flat]. rewrite inter_map. f_equal.
  - rewrite !map_map. eapply mapM_eq; [done|]. intros r' y _ Hy. by apply IH in Hy.
  - eapply mapM_eq; [done|]. intros q y _ Hy. cbn beta in Hy. rewrite block_at_blk in Hy. destruct (blk C q) as [b'|] eqn:E; [|done]. injection Hy as <-. by rewrite (kd_key _ _ _ E).
Qed.
Lemma grow_entries n C : forall h T, shape h T -> (h < n)%nat ->
  (forall u, u ∈ subs T -> cnode C (tref u) = Some (node_of u)) -> (forall k, k ∈ flat T -> is_Some (blk C k)) ->
  read_entries n C (tref T) = Some (map (kd C) (flat T)).
Proof.
  induction n as [|n IH]; intros h T Hs Hn Hc Hk; [lia|]. cbn [read_entries].
  pose proof (Hc T (subs_self T)) as HT. unfold cnode in HT. rewrite block_at_blk.
  destruct (blk C (fst (tref T))) as [b|]; [|done]. cbn. rewrite HT. cbn. destruct T as [r ks cs]. cbn [node_of n_keys n_children tkeys tkids].
  rewrite (mapM_map _ (kd C)); cbn.
  2:{ intros q Hq. rewrite block_at_blk. destruct (Hk q) as [b' Hb']; [by eapply elem_of_flat_keys|]. rewrite Hb'. cbn. by rewrite (kd_key _ _ _ Hb'). }
  assert (mapM (read_entries n C) (map tref cs) = Some (map (fun c => map (kd C) (flat c)) cs)) as ->.
  2:{ cbn. f_equal. rewrite interleave_inter, inter_map, map_map. done. }
  assert (forall c, c ∈ cs -> read_entries n C (tref c) = Some (map (kd C) (flat c))) as Hcs.
  { intros c Hin. destruct h as [|h]; [destruct Hs as [-> _]; by apply elem_of_nil in Hin|].
    destruct (shape_kids _ _ c Hs Hin) as [_ Hsc]. apply (IH h c Hsc); [lia| |].
    - intros u Hu. apply Hc. by eapply (subs_kid (Nd r ks cs)).
    - intros k Hk'. apply Hk. apply (elem_of_flat_sub _ _ _ Hs). apply (elem_of_flat_sub _ _ _ Hsc) in Hk' as (u & Hu & Hku).
      exists u. split; [by eapply (subs_kid (Nd r ks cs))|done]. }
  clear -Hcs. induction cs as [|c cs IHc]; [done|]. cbn. rewrite Hcs by (by left). cbn. rewrite IHc; [done|]. intros. apply Hcs. by right.
Qed.

Lemma erase_balanced C root h : forall T, balanced root h (erase C T) ->
  shape h T /\ (h = 0 \/ tkeys T <> []) /\ (root = false -> (4 <= length (tkeys T))%nat).
Proof.
  revert root. induction h as [|h IH]; intros root [r ks cs] Hb; cbn in *; rewrite !map_length in Hb.
  - destruct Hb as (H8 & H4 & H0). split_and!; [|done|by left|done]. by apply fmap_nil_inv in H0.
  - destruct Hb as (H8 & H4 & H1 & H2 & H3). rewrite Forall_fmap in H3. split_and!; [done|done| |right; intros ->; cbn in H1; lia|done].
    eapply Forall_impl; [exact H3|]. intros c Hc. apply IH in Hc as (? & _ & H). split; [by apply H|done].
Qed.

(** Nodes differ, since their keys do. *)
Lemma flat_subs h : forall T, shape h T -> flat T ≡ₚ concat (map tkeys (subs T)).
Proof.
  assert (forall (cs : list (list nat)) ks, cs = [] \/ length cs = S (length ks) -> inter cs ks ≡ₚ ks ++ concat cs) as Hi.
  { induction cs as [|c cs IH]; intros ks Hl; [cbn; by rewrite app_nil_r|]. destruct ks as [|k ks]; [done|]. cbn.
    destruct Hl as [?|Hl]; [done|]. injection Hl as Hl. rewrite IH by (by right). solve_Permutation. }
  induction h as [|h IH]; intros [r ks cs] Hs.
  - destruct Hs as [-> _]. cbn. by rewrite app_nil_r.
  - destruct Hs as (Hl & _ & Hcs). cbn [flat subs]. rewrite Hi by (right; by rewrite map_length). cbn. f_equiv. rewrite concat_map.
    clear Hl. induction Hcs as [|c cs [_ Hc] _ IHc]; [done|]. cbn. rewrite concat_app. by rewrite (IH c Hc), IHc.
Qed.
Lemma nodup_refs (us : list tree) : NoDup (concat (map tkeys us)) -> Forall (fun u => tkeys u <> []) us ->
  (forall u v, u ∈ us -> v ∈ us -> tref u = tref v -> tkeys u = tkeys v) -> NoDup (map tref us).
Proof.
  induction us as [|u us IH]; intros Hd Hn He; [constructor|]. cbn in *. apply NoDup_app in Hd as (_ & H1 & H2). apply Forall_cons in Hn as [Hu Hn].
  constructor.
  - intros (v & Ev & Hv)%elem_of_list_fmap. assert (tkeys u = tkeys v) as E by (apply He; [by left|by right|done]).
    destruct (tkeys u) as [|k ks] eqn:Ek; [done|]. apply (H1 k); [by left|]. apply elem_of_list_In, in_concat. exists (tkeys v).
    split; [apply in_map; by apply elem_of_list_In|]. rewrite <-E. by left.
  - apply IH; [done|done|]. intros v w Hv Hw. apply He; by right.
Qed.
Lemma shape_keys h : forall T, shape h T -> tkeys T <> [] -> Forall (fun u => tkeys u <> []) (subs T).
Proof.
  induction h as [|h IH]; intros [r ks cs] Hs Hk; cbn [subs]; constructor; try done.
  - destruct Hs as [-> _]. constructor.
  - apply Forall_forall. intros u (l & Hl & Hu)%elem_of_list_In%in_concat. apply in_map_iff in Hl as (c & <- & Hc). apply elem_of_list_In in Hc, Hu.
    destruct (shape_kids _ _ c Hs Hc) as [H4 Hsc]. pose proof (IH c Hsc) as H. rewrite Forall_forall in H. apply H; [|done]. intros E. rewrite E in H4. cbn in H4. lia.
Qed.

Lemma holds_wft C m : block_at C 0 = None -> (forall q b, block_at C q = Some b -> (N.of_nat (length (b_nodes b)) < 2 ^ 52)%N) ->
  (2 <= length C)%nat -> holds C m -> exists h T, wft C (length C - 1) h T /\ m = map (kd C) (flat T).
Proof.
  intros H0 Hbig Hl ((h & t & Ht & Hb & Hm) & Hs). destruct (read_grow _ _ _ _ Ht) as (Hn & Hk & ->). apply entries_grow in Hm.
  set (T := grow (S h) C (length C - 1, 0)) in *. apply erase_balanced in Hb as (Hsh & Hr & _).
  assert (ksorted (kd C) (flat T)) as Hsort.
  { unfold ksorted. rewrite Hm, map_map in Hs. unfold keyof. clear -Hs. induction Hs as [|x l _ IH Hx]; constructor; [done|].
    eapply Forall_impl; [exact Hx|]. intros y. apply key_lt_blt. }
  assert (forall q, is_Some (blk C q) -> (1 <= q <= length C - 1)%nat) as Hq.
  { intros q [b Hq]. pose proof (blk_lt _ _ _ Hq). destruct q; [|lia]. rewrite block_at_blk in H0. congruence. }
  exists h, T. split; [|done]. split; [apply tref_grow|done|done| | | | |done].
  - intros r (u & Hu & <-)%elem_of_refs. apply Hq. pose proof (Hn u Hu) as H. unfold cnode in H. by destruct (blk C (fst (tref u))).
  - intros r (u & Hu & <-)%elem_of_refs. pose proof (Hn u Hu) as H. unfold cnode in H. destruct (blk C (fst (tref u))) as [b|] eqn:E; [|done].
    rewrite <-block_at_blk in E. apply Hbig in E. apply lookup_lt_Some in H. lia.
  - destruct (decide (tkeys T = [])) as [E|E].
    + destruct Hr as [->|?]; [|done]. destruct T as [r ks cs]. destruct Hsh as [-> _]. cbn. apply NoDup_singleton.
    + apply nodup_refs; [|by eapply shape_keys|].
      * rewrite <-(flat_subs _ _ Hsh). apply (NoDup_fmap_1 (keyof (kd C))). clear -Hsort. unfold ksorted in Hsort. change (keyof (kd C) <$> flat T) with (map (keyof (kd C)) (flat T)).
        revert Hsort. generalize (map (keyof (kd C)) (flat T)). intros l Hl. induction Hl as [|x l _ IH Hx]; constructor; [|done]. intros Hin. rewrite Forall_forall in Hx. by apply (blt_irrefl x), Hx.
      * intros u v Hu Hv E'. pose proof (Hn u Hu) as H1. pose proof (Hn v Hv) as H2. rewrite E' in H1. rewrite H2 in H1. by injection H1.
  - intros k Hk'. apply (elem_of_flat_sub _ _ _ Hsh) in Hk' as (u & Hu & Hku). pose proof (Hk u k Hu Hku). split; [by apply Hq|done].
Qed.

Lemma found_rep C m : found C m -> exists t, rep C m t.
Proof.
  intros (H0 & Hbig & [[Hl ->]|[Hl Hh]]); [by exists None|]. destruct (holds_wft _ _ H0 Hbig Hl Hh) as (h & T & HW & Hm).
  exists (Some T). split; [done|]. by exists h.
Qed.
Lemma base_valid C : valid (BB := C) C.
Proof.
  unfold valid, base_core. split_and!; [done|by intros ->|]. intros v Hv. lia.
Qed.

(** ** What the library makes of it *)
Lemma rep_found C C' m m' t : found C m -> valid (BB := C) C' -> rep C' m' t -> (N.of_nat (length C') < 2 ^ 50)%N -> found C' m'.
Proof.
  intros (H0 & Hbig & _) (Hp & Hh & Hv) Hr Hsm. unfold base_core in *.
  assert (forall q, (q < length C)%nat -> block_at C' q = block_at C q) as Hold.
  { intros q Hq. destruct Hp as [k ->]. unfold block_at. by rewrite lookup_app_l. }
  split_and!.
  - destruct (decide (C = [])) as [->|Hne].
    + destruct (block_at C' 0) as [b|] eqn:E; [|done]. apply block_at_some in E as (raw & Er & Ed).
      destruct (Hh eq_refl raw Er) as (md & Hmd & ->). by rewrite header_no_block in Ed.
    + rewrite Hold; [done|]. destruct C; [done|]. cbn. lia.
  - intros q b Hb. destruct (decide (q < length C)%nat) as [Hq|Hq]; [rewrite Hold in Hb by done; by eapply Hbig|].
    pose proof Hb as Hb'. rewrite block_at_blk in Hb'. pose proof (blk_lt _ _ _ Hb') as Hlt. destruct (decide (q = 0)) as [->|Hq0].
    { destruct C; [|cbn in Hq; lia]. apply block_at_some in Hb as (raw & Er & Ed). destruct (Hh eq_refl raw Er) as (md & Hmd & ->). by rewrite header_no_block in Ed. }
    destruct (Hv q) as (h & T & key & value & len & HW & Hbk & Hn & Hlen & _); [lia|]. rewrite Hbk in Hb'. injection Hb' as <-. cbn [b_nodes].
    rewrite map_length. apply (f_equal length) in Hn. unfold news in Hn. rewrite !map_length, seq_length in Hn. pose proof (wft_height _ _ _ _ HW). lia.
  - destruct t as [T|]; [right|by left]. destruct Hr as (Hl & h & HW & ->). split; [done|]. pose proof (version_tree _ _ _ _ HW) as (Ht & Hb & Hs & _).
    split.
    + exists h, (erase C' T). split_and!; [done|done|]. rewrite <-(wf_tref _ _ _ _ HW). eapply grow_entries; [apply (wf_shape _ _ _ _ HW)|lia|apply HW|].
      intros k Hk. by apply HW.
    + rewrite inorder_erase in Hs. rewrite map_map. exact Hs.
Qed.

Lemma foreign_core fuel C m l : found C m -> trusted nobody l -> Forall event_ok l ->
  (Nat.max 1 (length C) + length l <= fuel)%nat -> (N.of_nat (Nat.max 1 (length C) + length l) < 2 ^ 50)%N ->
  exists rs w b, play fuel l (new_world C) = (rs, w) /\ explains l (Store (length C) m) rs b /\
    length (w_core w) = s_blocks b /\ C `prefix_of` w_core w /\ found (w_core w) (s_entries b).
Proof.
  intros Hf Ht He Hl Hn. destruct (found_rep _ _ Hf) as [t Hr].
  destruct (play_spec (BB := C) l fuel (new_world C) nobody m t) as (rs & w' & b & t' & E1 & E2 & E3 & E4 & E5 & E6); [|done|done|done|].
  - apply new_world_inv; [apply base_valid|done].
  - exists rs, w', b. split_and!; [done|done|done|done|]. eapply rep_found; [done|apply E3|apply E3|]. destruct E6 as [_ E6]. unfold with_header in E6. lia.
Qed.
Lemma foreign_behaves fuel C m : found C m -> behaves fuel C (Store (length C) m).
Proof.
  intros Hf l Hev Hc Hl Hn. destruct (clean_trusted l nobody Hc) as [Ht Hb]; [by intros j []|].
  destruct (foreign_core fuel C m l Hf Ht Hev Hl Hn) as (rs & w' & b & E1 & E2 & _). destruct (explains_clean _ _ _ _ E2 Hc) as [-> ->]. by exists w'.
Qed.

(** A core the library would not write: a header of one byte that means nothing, eight
    blocks without nodes, and in the last one, which has an unknown field besides, the
    children in the wrong order. *)
Definition strange : list bytes :=
  [xff] :: map (fun i => encode_block [] (kb i) (Some (kb i))) (seq 1 8) ++
  [encode_block (map to_level [Node [5] [(9, 2); (9, 1)]; Node [6; 7; 8; 9] []; Node [1; 2; 3; 4] []]) (kb 9) (Some (kb 9)) ++ [x78; x01]].
Definition strange_entries : list kvdata := map (fun i => KV i (kb i) (Some (kb i))) (seq 1 9).
Lemma strange_found : found strange strange_entries.
Proof.
  split_and!.
  - by vm_compute.
  - assert (Forall (fun raw => (N.of_nat (length (match decode_block raw with DOk b => b_nodes b | _ => [] end)) < 2 ^ 52)%N) strange) as H.
    { unfold strange. repeat (apply List.Forall_cons; [by vm_compute|]). constructor. }
    intros q b (raw & Hr & Hb)%block_at_some. rewrite Forall_forall in H. specialize (H raw (elem_of_list_lookup_2 _ _ _ Hr)). cbn beta in H. by rewrite Hb in H.
  - right. split; [by apply Nat.leb_le|]. split.
    + exists 1, (SNode [kb 5] [SNode (map kb [1; 2; 3; 4]) []; SNode (map kb [6; 7; 8; 9]) []]).
      split_and!; [by vm_compute| |by vm_compute]. cbn. split_and!; try lia; try done. repeat (constructor; [cbn; split_and!; try lia; done|]). constructor.
    + repeat constructor; by apply key_lt_blt.
Qed.
