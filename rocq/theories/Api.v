(** Sequential calls on one handle: what each does to the core, the handle and
    the map it represents. *)
From Coq.Strings Require Import Byte.
From Coq Require Import Lia Sorting.Sorted.
From stdpp Require Import prelude gmap.
From Verif Require Import Bytes Codec Model CodecProofs Order Wp Store Tree Iter Read Zip Pure Seq Mut MutDel MutTop Commit Spec OrderProofs Client Abs Guard.

(** ** States *)

(** Version [v] of the core: its tree, and the layout of its block. *)
Definition layout (C : list bytes) (v : nat) : Prop :=
  exists h T key value len, wft C v h T /\
    blk C v = Some (Block (map node_of (newsubs v T)) key value) /\
    map tref (newsubs v T) = news v 0 len /\ (0 < len <= 2 * h + 3)%nat /\
    C !! v = Some (encode_block (map to_level (map node_of (newsubs v T))) key value).

(** What the library found in the core at first. *)
Class Base := base_core : list bytes.

(** All that is in a core besides what was found there has been written by the library. *)
Definition valid {BB : Base} (C : list bytes) : Prop :=
  base_core `prefix_of` C /\
  (base_core = [] -> forall raw, C !! 0 = Some raw -> exists md, metadata_ok md /\ raw = header_block md) /\
  forall v, (Nat.max 1 (length base_core) <= v < length C)%nat -> layout C v.

(** Its current tree (none before the first write) and map. *)
Definition rep (C : list bytes) (m : list kvdata) (t : option tree) : Prop :=
  match t with
  | None => (length C <= 1)%nat /\ m = []
  | Some T => (2 <= length C)%nat /\ exists h, wft C (length C - 1) h T /\ m = map (kd C) (flat T)
  end.

(** A handle whose cached copies of the current tree are unchanged. *)
Definition okh (s : st) (t : option tree) : Prop :=
  hwf s /\ match t with Some T => coh s T | None => True end.

Lemma wft_app C C' v h T : wft C v h T -> (v < length C)%nat -> wft (C ++ C') v h T.
Proof.
  intros HW Hv. destruct HW as [H1 H2 H3 H4 H5 H6 H7 H8]. split; try done.
  - intros u Hu. rewrite cnode_app_l; [by apply H3|].
    assert (tref u ∈ refs T) as Hr by (apply elem_of_refs; by exists u). apply H4 in Hr. lia.
  - intros k Hk. destruct (H7 k Hk) as [? ?]. split; [done|]. by rewrite blk_app_l by lia.
  - unfold ksorted in *. replace (map (keyof (kd (C ++ C'))) (flat T)) with (map (keyof (kd C)) (flat T)); [done|].
    apply map_ext_in. intros k Hk%elem_of_list_In. unfold keyof, kd. rewrite blk_app_l; [done|].
    destruct (H7 k Hk). lia.
Qed.

Lemma layout_app C C' v : layout C v -> (v < length C)%nat -> layout (C ++ C') v.
Proof.
  intros (h & T & key & value & len & HW & Hb & Hn) Hv. exists h, T, key, value, len.
  destruct Hn as (H1 & H2 & H3).
  split_and!; [by apply wft_app|by rewrite blk_app_l|done|apply H2|apply H2|by apply lookup_app_l_Some].
Qed.

Lemma coh_sext s s' v h T : wft (core s) v h T -> hwf s -> sext s s' -> coh s T -> coh s' T.
Proof.
  intros HW Hw Hx Hc r Hr. rewrite (sx_core _ _ Hx), <-(Hc r Hr).
  apply elem_of_refs in Hr as Hr'. destruct Hr' as (u & Hu & <-).
  pose proof (wf_node _ _ _ _ HW u Hu) as Hn. rewrite <-(Hc _ Hr) in Hn. rewrite Hn. by eapply sext_hnode'.
Qed.

Lemma okh_sext s s' m t : rep (core s) m t -> sext s s' -> okh s t -> okh s' t.
Proof.
  intros Hr Hx [Hw Hc]. split; [by eapply sext_hwf|]. destruct t as [T|]; [|done].
  destruct Hr as (_ & h & HW & _). by eapply coh_sext.
Qed.

Lemma okh_ready s m T : rep (core s) m (Some T) -> okh s (Some T) -> ready (kd (core s)) s T.
Proof. intros (_ & h & HW & _) [_ Hc]. eapply sub_ready; [exact HW|done|apply subs_self|done]. Qed.

(** The tree of a version is determined by the core. *)
Lemma tree_det C t : forall t', (forall u, u ∈ subs t -> cnode C (tref u) = Some (node_of u)) ->
  (forall u, u ∈ subs t' -> cnode C (tref u) = Some (node_of u)) -> tref t = tref t' -> t = t'.
Proof.
  induction t as [r ks cs IH] using tree_ind'. intros [r' ks' cs'] H1 H2 Hr. simpl in Hr. subst r'.
  pose proof (H1 _ (subs_self _)) as E1. pose proof (H2 _ (subs_self _)) as E2. simpl in E1, E2.
  rewrite E1 in E2. unfold node_of in E2. simpl in E2. injection E2 as -> Ecs. f_equal.
  assert (forall c u, c ∈ cs -> u ∈ subs c -> cnode C (tref u) = Some (node_of u)) as K1.
  { intros c u Hc Hu. apply H1. by eapply (subs_kid (Nd r ks' cs)). }
  assert (forall c u, c ∈ cs' -> u ∈ subs c -> cnode C (tref u) = Some (node_of u)) as K2.
  { intros c u Hc Hu. apply H2. by eapply (subs_kid (Nd r ks' cs')). }
  clear H1 H2 E1. revert cs' Ecs K2. induction IH as [|c cs Hc _ IHcs]; intros [|c' cs'] Ecs K2; try done.
  simpl in Ecs. injection Ecs as E Ecs. f_equal.
  - apply Hc; [|intros u Hu; eapply (K2 c'); [left|done]|done]. intros u Hu. eapply (K1 c); [left|done].
  - apply IHcs; [|done|]; intros; [eapply K1; [right; eassumption|done]|eapply K2; [right; eassumption|done]].
Qed.

Lemma wft_det C v h T h' T' : wft C v h T -> wft C v h' T' -> T = T'.
Proof.
  intros H1 H2. eapply tree_det; [apply H1|apply H2|]. by rewrite (wf_tref _ _ _ _ H1), (wf_tref _ _ _ _ H2).
Qed.

Lemma rep_det C m t m' t' : rep C m t -> rep C m' t' -> m = m' /\ t = t'.
Proof.
  destruct t as [T|], t' as [T'|]; simpl.
  - intros (_ & h & HW & ->) (_ & h' & HW' & ->). by rewrite (wft_det _ _ _ _ _ _ HW HW').
  - intros [? _] [? _]. lia.
  - intros [? _] [? _]. lia.
  - by intros [_ ->] [_ ->].
Qed.

(** ** Sequential reads *)
Lemma swp_get_root s (Q : option nid -> st -> Prop) (E : stop -> st -> Prop) m t :
  rep (core s) m t -> okh s t ->
  (t = None -> Q None s) ->
  (forall T n s', t = Some T -> sext s s' -> heap s' !! n = Some (node_of T) -> loc s' (tref T) n -> Q (Some n) s') ->
  sEok E s -> swp (get_root false) Q E s.
Proof.
  intros Hr Hok HQ0 HQ1 HE. destruct t as [T|].
  - apply (wp_get_root eq (fun _ _ => True) sext hwf loc);
      eauto using eq_sext, sext_refl, sext_trans, sext_hwf, sext_heap, sext_blk, sx_oracle, sext_hnode', sext_loc.
    + intros. by eapply blocks_get_seq.
    + by intros ? [? _].
    + apply Hok.
    + intros s1 s2 H1 _ _ Hl. rewrite (sx_core _ _ H1) in Hl. destruct Hr as [? _]. lia.
    + intros s1 H1 Hw1 Hl. exists T, (kd (core s)). split.
      * pose proof (okh_sext _ _ _ _ Hr H1 Hok) as Hok1. pose proof Hr as Hr1. rewrite <-(sx_core _ _ H1) in Hr1.
        split; [|rewrite <-(sx_core _ _ H1); by eapply okh_ready]. destruct Hr1 as (_ & h & HW & _). apply HW.
      * intros n s2 H2 Hw2 Hn HL. eapply HQ1; [done|by eapply sext_trans|done|done].
  - destruct Hr as [Hl _]. unfold get_root, version. apply swp_bind. apply swp_core_len.
    destruct (Nat.leb_spec (length (core s)) 1); [|lia]. rewrite andb_false_r. apply swp_ret. by apply HQ0.
Qed.

Lemma rep_sext s s' m t : sext s s' -> rep (core s) m t -> rep (core s') m t.
Proof. intros Hx. by rewrite (sx_core _ _ Hx). Qed.

Lemma sEok_sext E s s' : sext s s' -> sEok E s -> sEok E s'.
Proof.
  intros Hx HE e s2 Hx2 Hw Hf. apply HE; [by eapply sext_trans|done|]. eapply hit_l; [apply (sx_oracle _ _ Hx)|done].
Qed.

Lemma swp_tree_get fuel key s m t (Q : option (nat * option bytes) -> st -> Prop) (E : stop -> st -> Prop) :
  rep (core s) m t -> okh s t -> (length (core s) <= fuel)%nat ->
  (forall s', sext s s' -> Q ((fun e => (kv_seq e, kv_value e)) <$> lookup_key key m) s') ->
  sEok E s -> swp (tree_get fuel key) Q E s.
Proof.
  intros Hr Hok Hf HQ HE.
  apply (wp_tree_get eq (fun _ _ => True) sext hwf loc);
    eauto using eq_sext, sext_refl, sext_trans, sext_hwf, sext_heap, sext_blk, sx_oracle, sext_hnode', sext_loc.
  - intros. by eapply blocks_get_seq.
  - by intros ? [? _].
  - apply Hok.
  - intros s1 s2 H1 H2 _ Hl. rewrite (sx_core _ _ H1) in Hl. destruct t as [T|]; [destruct Hr as [? _]; lia|].
    destruct Hr as [_ ->]. apply (HQ s2). by eapply sext_trans.
  - intros s1 H1 Hw1 Hl. rewrite (sx_core _ _ H1) in Hl. destruct t as [T|]; [|destruct Hr as [? _]; lia].
    pose proof Hr as (_ & h & HW & ->). pose proof (okh_sext _ _ _ _ Hr H1 Hok) as Hok1.
    pose proof (rep_sext _ _ _ _ H1 Hr) as Hr1.
    exists T, (kd (core s)), h. split_and!.
    + split; [rewrite (sx_core _ _ H1); apply HW|]. rewrite <-(sx_core _ _ H1). by eapply okh_ready.
    + apply HW.
    + apply HW.
    + pose proof (wft_height _ _ _ _ HW). lia.
    + intros mt tp s2 H2 Hw2 Hd.
      rewrite (desc_lookup _ _ _ _ _ _ Hd (wf_shape _ _ _ _ HW) (wf_sort _ _ _ _ HW)) in HQ.
      assert (sext s s2) as H02 by (by eapply sext_trans). specialize (HQ s2 H02).
      destruct mt as [q|]; done.
Qed.

Lemma swp_tree_traverse fuel conf s m t (Q : list item * bool -> st -> Prop) (E : stop -> st -> Prop) :
  rep (core s) m t -> okh s t -> (length (core s) <= fuel)%nat ->
  (t = None -> forall s', sext s s' -> E (SErr ENoRoot) s') ->
  (forall T its b s', t = Some T -> sext s s' ->
     tr (kd (core s)) (kids_of (kd (core s)) conf T) s' (oracle s') (oracle s) its (expected (kd (core s)) conf T) b ->
     Q (map fst its, b) s') ->
  sEok E s -> swp (tree_traverse fuel conf) Q E s.
Proof.
  intros Hr Hok Hf HQ0 HQ HE.
  apply (wp_tree_traverse eq (fun _ _ => True) sext hwf loc);
    eauto using eq_sext, sext_refl, sext_trans, sext_hwf, sext_heap, sext_blk, sx_oracle, sext_hnode', sext_loc.
  - intros. by eapply blocks_get_seq.
  - by intros ? [? _].
  - apply Hok.
  - intros s1 s2 H1 H2 _ Hl. rewrite (sx_core _ _ H1) in Hl. destruct t as [T|]; [destruct Hr as [? _]; lia|].
    apply HQ0; [done|]. by eapply sext_trans.
  - intros s1 H1 Hw1 Hl. rewrite (sx_core _ _ H1) in Hl. destruct t as [T|]; [|destruct Hr as [? _]; lia].
    pose proof Hr as (_ & h & HW & ->). pose proof (okh_sext _ _ _ _ Hr H1 Hok) as Hok1.
    pose proof (rep_sext _ _ _ _ H1 Hr) as Hr1.
    exists T, (kd (core s)), h. split_and!.
    + split; [rewrite (sx_core _ _ H1); apply HW|]. rewrite <-(sx_core _ _ H1). by eapply okh_ready.
    + apply HW.
    + apply HW.
    + pose proof (wft_height _ _ _ _ HW). lia.
    + intros its b s2 H2 Hw2 Htr. eapply HQ; [done|by eapply sext_trans|done].
Qed.

Lemma swp_tree_height fuel s m t (Q : nat -> st -> Prop) (E : stop -> st -> Prop) :
  rep (core s) m t -> okh s t -> (length (core s) <= fuel)%nat ->
  (t = None -> forall s', sext s s' -> Q 0 s') ->
  (forall T h s', t = Some T -> wft (core s) (length (core s) - 1) h T -> sext s s' -> Q (S h) s') ->
  sEok E s -> swp (tree_height fuel) Q E s.
Proof.
  intros Hr Hok Hf HQ0 HQ HE.
  apply (wp_tree_height eq (fun _ _ => True) sext hwf loc);
    eauto using eq_sext, sext_refl, sext_trans, sext_hwf, sext_heap, sext_blk, sx_oracle, sext_hnode', sext_loc.
  - intros. by eapply blocks_get_seq.
  - by intros ? [? _].
  - apply Hok.
  - intros s1 s2 H1 H2 _ Hl. rewrite (sx_core _ _ H1) in Hl. destruct t as [T|]; [destruct Hr as [? _]; lia|].
    apply HQ0; [done|]. by eapply sext_trans.
  - intros s1 H1 Hw1 Hl. rewrite (sx_core _ _ H1) in Hl. destruct t as [T|]; [|destruct Hr as [? _]; lia].
    pose proof Hr as (_ & h & HW & ->). pose proof (okh_sext _ _ _ _ Hr H1 Hok) as Hok1.
    pose proof (rep_sext _ _ _ _ H1 Hr) as Hr1.
    exists T, (kd (core s)), h. split_and!.
    + split; [rewrite (sx_core _ _ H1); apply HW|]. rewrite <-(sx_core _ _ H1). by eapply okh_ready.
    + apply HW.
    + pose proof (wft_height _ _ _ _ HW). lia.
    + intros s2 H2 Hw2. eapply HQ; [done|exact HW|by eapply sext_trans].
Qed.

(** ** Writes *)

(** The tree a write builds, before its nodes are numbered. *)
Definition put_ghost (C : list bytes) (key : bytes) (t : option tree) (T : tree) : Prop :=
  match t with
  | None => T = Nd (length C, 0) [length C] []
  | Some T0 => exists m tp, desc (kd C) (Finite key) T0 m tp /\
      T = fst (pput (length C) 0 (bool_decide (is_Some m)) (length C) [] tp)
  end.
Definition del_ghost (C : list bytes) (key : bytes) (t : option tree) (T : tree) : Prop :=
  exists T0 q0 tp b tp' len D, t = Some T0 /\ desc (kd C) (Finite key) T0 (Some q0) tp /\
    dplace (kd C) tp b tp' /\ pdel (length C) b tp' = Some (T, len, D).

(** A block has been appended: the core is valid and represents the new map. *)
Record wrote {BB : Base} (C : list bytes) (t : option tree) (G : tree -> Prop) (key : bytes) (value : option bytes)
    (m' : list kvdata) (s' : st) (T' : tree) : Prop := {
  wr_ghost : exists T, G T /\ T' = fst (relabel (length C) 0 T);
  wr_core : core s' = C ++ [encode_block (map to_level (map node_of (newsubs (length C) T'))) key value];
  wr_blk : blk (core s') (length C) = Some (Block (map node_of (newsubs (length C) T')) key value);
  wr_valid : valid (core s');
  wr_rep : rep (core s') m' (Some T');
  wr_ok : okh s' (Some T');
  wr_refs : forall r, r ∈ refs T' -> fst r = length C \/ exists T, t = Some T /\ r ∈ refs T }.

Lemma kd_app C raw k : (k < length C)%nat -> kd (C ++ [raw]) k = kd C k.
Proof. intros H. unfold kd. by rewrite blk_app_l. Qed.

Lemma ksorted_app D L R : ksorted D L -> ksorted D R ->
  (forall a b, a ∈ L -> b ∈ R -> blt (kv_key (D a)) (kv_key (D b))) -> ksorted D (L ++ R).
Proof.
  intros H1 H2 H3. unfold ksorted in *. rewrite map_app. apply StronglySorted_app. split_and!; [done|done|].
  intros x y (a & -> & Ha)%elem_of_list_fmap (b & -> & Hb)%elem_of_list_fmap. by apply H3.
Qed.

Lemma committed_wrote {BB : Base} C t RS T (G : tree -> Prop) key value h len F s' T' m' :
  committed C RS T key value h len F s' T' -> valid C -> (1 <= length C)%nat -> G T ->
  (0 < len <= 2 * h + 3)%nat -> (forall r, r ∈ RS -> exists T0, t = Some T0 /\ r ∈ refs T0) ->
  m' = map (kd (core s')) F -> wrote C t G key value m' s' T'.
Proof.
  intros HC (Hp & Hh & Hv) Hl HG Hlen HRS ->. pose proof (cm_core _ _ _ _ _ _ _ _ _ _ HC) as Ec.
  assert (length (core s') = S (length C)) as El by (rewrite Ec, app_length; simpl; lia). split.
  - exists T. split; [done|apply HC].
  - done.
  - apply HC.
  - split_and!.
    + rewrite Ec. by apply prefix_app_r.
    + intros Hb raw. rewrite Ec, lookup_app_l by lia. by apply Hh.
    + intros v Hvr. destruct (decide (v = length C)) as [->|Hne].
      * exists h, T', key, value, len. split_and!; [apply HC|apply HC|apply HC|lia|lia|].
        by rewrite Ec, lookup_app_r, Nat.sub_diag by lia.
      * rewrite Ec. apply layout_app; [|lia]. apply Hv. lia.
  - split; [lia|]. exists h. replace (length (core s') - 1)%nat with (length C) by lia.
    split; [apply HC|]. by rewrite (cm_flat _ _ _ _ _ _ _ _ _ _ HC).
  - split; apply HC.
  - intros r Hr. destruct (cm_refs _ _ _ _ _ _ _ _ _ _ HC r Hr) as [?|?]; [by left|right; by apply HRS].
Qed.

(** Committing what the mutation phase left. *)
Lemma commit_mut {BB : Base} C v h0 T0 o P key value F hmin hmax lmax s ch m' (Q : unit -> st -> Prop) (E : stop -> st -> Prop) :
  wft C v h0 T0 -> length C = S v -> (1 <= v)%nat -> valid C ->
  Mutd C T0 o P key value F hmin hmax lmax s ch ->
  (forall k, k ∈ F -> k = length C \/ (1 <= k < length C)%nat /\ is_Some (blk C k)) ->
  (forall raw b, blk (C ++ [raw]) (length C) = Some b -> b_key b = key -> ksorted (kd (C ++ [raw])) F) ->
  (forall raw b, blk (C ++ [raw]) (length C) = Some b -> b_key b = key -> b_value b = value -> m' = map (kd (C ++ [raw])) F) ->
  chain_small C -> (lmax <= 2 * hmin + 3)%nat -> (hmin <= h0)%nat -> u64 (blen key) ->
  match value with None => True | Some x => u64 (blen x) end ->
  (forall s' T', wrote C (Some T0) P key value m' s' T' -> oracle s' `suffix_of` o -> Q tt s') ->
  (forall s', core s' = C -> hwf s' -> losing o -> E (SErr EHypercore) s') ->
  (forall s' T', wrote C (Some T0) P key value m' s' T' -> losing o -> E (SErr EHypercore) s') ->
  swp (add_changes ch) Q E s.
Proof.
  intros HW Hv Hv1 HV (M & K & T & h & olds & HP & HD & Hsh & HF & HT & Hh & Hlen & Hrefs & HM) Hkeys Hsort Hm Hsm Hlm Hhm Hku Hvu HQ HE1 HE2.
  pose proof (wft_height _ _ _ _ HW) as Hhv. unfold chain_small in *.
  assert (NoDup (M ++ olds)) as Hnd. { rewrite HM. apply HW. } apply NoDup_app in Hnd as (N1 & N2 & N3).
  assert (forall r, r ∈ olds -> r ∈ refs T0) as Hin. { intros r Hr. rewrite <-HM, elem_of_app. by right. }
  assert (forall s' T', committed C (refs T0) T key value h (length (ch_nodes ch)) F s' T' ->
    wrote C (Some T0) P key value m' s' T') as Hwr.
  { intros s' T' HC. eapply committed_wrote; [exact HC|done|lia|done|lia| |].
    - intros r Hr. by exists T0.
    - pose proof (cm_blk _ _ _ _ _ _ _ _ _ _ HC) as Hb. rewrite (cm_core _ _ _ _ _ _ _ _ _ _ HC) in Hb |- *.
      eapply Hm; [exact Hb|reflexivity|reflexivity]. }
  eapply (m_commit C (refs T0) o); [exact HD|exact Hsh|exact HF|exact HT|lia|exact Hrefs|done| |exact Hkeys|lia|exact Hsort|done|lia|done|done| | |].
  - intros r Hr. pose proof (wf_seq _ _ _ _ HW r (Hin r Hr)) as Hs. split_and!; [by apply Hin| |lia|lia|by eapply wf_off, Hin].
    intros Hx. by apply (N2 r).
  - intros s' T' HC. apply (HQ s' T'). by apply Hwr.
  - done.
  - intros s' T' HC. apply (HE2 s' T'). by apply Hwr.
Qed.

Lemma headed_length C : length (headed C) = with_header (length C).
Proof. destruct C; [done|]. unfold with_header, headed. cbn [length]. lia. Qed.
Lemma headed_some C : (1 <= length C)%nat -> headed C = C.
Proof. destruct C; simpl; [lia|done]. Qed.
Lemma headed_valid {BB : Base} C : valid C -> valid (headed C).
Proof.
  destruct C as [|raw C]; [|done]. intros [E%prefix_nil_inv _]. unfold valid. rewrite E. split_and!; [apply prefix_nil| |cbn; lia].
  intros _ raw [= <-]. by exists None.
Qed.

(** The handle is intact, with or without the header. *)
Definition intact (s s' : st) (t : option tree) : Prop :=
  (core s' = core s \/ losing (oracle s) /\ core s' = headed (core s)) /\ okh s' t.

Lemma intact_sext s s' m t : rep (core s) m t -> okh s t -> sext s s' -> intact s s' t.
Proof. intros Hr Hok Hx. split; [left; apply Hx|by eapply okh_sext]. Qed.

Lemma swp_root_true s m t (Q : option nid -> st -> Prop) (E : stop -> st -> Prop) :
  rep (core s) m t -> okh s t ->
  (t = None -> forall s', core s' = headed (core s) -> okh s' None -> oracle s' `suffix_of` oracle s -> Q None s') ->
  (forall T n s', t = Some T -> sext s s' -> heap s' !! n = Some (node_of T) -> loc s' (tref T) n -> Q (Some n) s') ->
  (forall e s', failing e (oracle s) -> intact s s' t -> E (SErr e) s') ->
  swp (get_root true) Q E s.
Proof.
  intros Hr Hok HQ0 HQ1 HE. destruct (decide (length (core s) = 0)) as [H0|H0].
  - destruct t as [T|]; [destruct Hr as [? _]; lia|]. apply nil_length_inv in H0. destruct Hok as [Hw _].
    unfold get_root, version. apply swp_bind. apply swp_core_len. rewrite H0. cbn [length Nat.leb Nat.eqb andb].
    apply swp_bind. unfold ensure_header. apply swp_bind. apply rwp_catch.
    unfold create_header. apply swp_bind. apply swp_core_len. rewrite H0. cbn [length Nat.eqb].
    unfold blocks_append. cbn [pbind]. intros s1 <-. split; [done|].
    assert (forall o, core (set_oracle (set_core s (core s ++ [enc_header (Header PROTOCOL None)])) o) = headed (core s)) as Hc by (by rewrite H0).
    assert (forall o, okh (set_oracle (set_core s (core s ++ [enc_header (Header PROTOCOL None)])) o) None) as Hk.
    { intros o. split; [|done]. apply hwf_oracle. by apply hwf_append. }
    assert (forall e o, failing e (oracle s) -> E (SErr e) (set_oracle s o)) as HEo.
    { intros e o Hf. apply HE; [done|]. split; [by left|done]. }
    unfold exec_append. destruct (oracle s) as [|f o] eqn:Eo.
    + cbn [pbind]. intros s2 <-. apply swp_ret. apply swp_ret.
      specialize (HQ0 eq_refl (set_core s (core s ++ [enc_header (Header PROTOCOL None)]))). apply HQ0.
      * by rewrite H0.
      * apply (Hk []).
      * simpl. by rewrite Eo.
    + destruct f; cbn [pbind]; intros s2 <-.
      * apply swp_ret. apply swp_ret. apply HQ0; [done|apply Hc|apply Hk|]. simpl. by apply suffix_cons_r.
      * intros s2 <-. apply HEo. by left.
      * apply swp_ret. apply swp_ret. apply HQ0; [done|apply Hc|apply Hk|]. simpl. by apply suffix_cons_r.
      * intros s2 <-. apply HE; [by left|]. split; [right; split; [rewrite Eo; left; by right|apply Hc]|apply Hk].
      * apply swp_ret. apply swp_ret. apply HQ0; [done|apply Hc|apply Hk|]. simpl. by apply suffix_cons_r.
  - assert (swp (get_root false) Q E s) as H.
    { eapply swp_get_root; [done|done| | |].
      - intros ->. apply HQ0; [done| |done|done]. by rewrite headed_some by lia.
      - done.
      - intros e s' Hx _ Hf%hit_failing. apply HE; [done|]. by eapply intact_sext. }
    unfold get_root, version in *. cbn [pbind core_len] in *. intros s1 <-. specialize (H s eq_refl). lazy beta iota in H |- *.
    destruct (Nat.leb_spec (length (core s)) 1); [|exact H]. rewrite andb_false_r in H.
    destruct (Nat.eqb_spec (length (core s)) 0); [lia|]. exact H.
Qed.

(** The first entry of a store without a tree. *)
Lemma put_first {BB : Base} key value s (Q : option nat * option nat -> st -> Prop) (E : stop -> st -> Prop) :
  valid (core s) -> length (core s) = 1 -> hwf s -> u64 (blen key) ->
  match value with None => True | Some x => u64 (blen x) end ->
  (forall s' T', wrote (core s) None (put_ghost (core s) key None) key value [KV 1 key value] s' T' ->
     oracle s' `suffix_of` oracle s -> Q (None, Some 1) s') ->
  (forall s', core s' = core s -> hwf s' -> losing (oracle s) -> E (SErr EHypercore) s') ->
  (forall s' T', wrote (core s) None (put_ghost (core s) key None) key value [KV 1 key value] s' T' ->
     losing (oracle s) -> E (SErr EHypercore) s') ->
  swp (n <- node_new (Node [1] []) ;;
       let '(_, ch') := add_node n (Changes 1 key value []) in
       add_changes ch' ;; Ret (None, Some 1)) Q E s.
Proof.
  intros HV Hl Hw Hku Hvu HQ HE1 HE2. set (C := core s) in *.
  assert (MI C [] (oracle s) [] ∅ s) as HM by (split; try done; intros ? ?%elem_of_nil; done).
  apply swp_bind. eapply m_new; [exact HM|]. intros n s1 _ HM1 _. unfold add_node. cbn [ch_seq ch_key ch_value ch_nodes length app].
  apply swp_bind.
  assert (forall s' T', committed C [] (Nd (1, 0) [1] []) key value 0 1 [1] s' T' ->
    wrote C None (put_ghost C key None) key value [KV 1 key value] s' T') as Hwr.
  { intros s' T' HC. eapply committed_wrote; [exact HC|done|lia| |lia| |].
    - simpl. by rewrite Hl.
    - intros r ?%elem_of_nil. done.
    - pose proof (cm_blk _ _ _ _ _ _ _ _ _ _ HC) as Hb. rewrite Hl in Hb. simpl. unfold kd. by rewrite Hb. }
  eapply (m_commit C [] (oracle s) [] key value (Nd (1, 0) [1] []) 1 0 [1] []);
    [ | |done|by rewrite Hl|lia| |constructor| | |lia| | |done|done|done| |done| ].
  - split; cbn [ch_nodes ch_seq ch_key ch_value]; try done.
    + apply NoDup_singleton.
    + intros u Hu. apply elem_of_list_singleton in Hu. subst u. left. split; [by unfold isnew; rewrite Hl|].
      exists n. simpl. by rewrite lookup_insert.
  - split; [simpl; split; [done|lia]|by left].
  - rewrite Hl. done.
  - by intros r ?%elem_of_nil.
  - intros k ->%elem_of_list_singleton. left. done.
  - intros. unfold ksorted. simpl. constructor; constructor.
  - unfold chain_small. rewrite Hl. done.
  - intros s' T' HC Ho. apply swp_ret. apply (HQ s' T'); [by apply Hwr|done].
  - intros s' T' HC Ho. apply (HE2 s' T'); [by apply Hwr|done].
Qed.

Lemma ksorted_put D D' key (L R M : list nat) q :
  ksorted D (L ++ M ++ R) ->
  (forall k, k ∈ L -> blt (kv_key (D k)) key) -> (forall k, k ∈ R -> blt key (kv_key (D k))) ->
  (forall k, k ∈ L ++ R -> D' k = D k) -> kv_key (D' q) = key -> ksorted D' (L ++ q :: R).
Proof.
  intros Hs HL HR HD Hq. unfold ksorted in *.
  assert (forall l, (forall k, k ∈ l -> k ∈ L ++ R) -> map (keyof D') l = map (keyof D) l) as Hm.
  { intros l Hl. apply map_ext_in. intros k Hk%elem_of_list_In. unfold keyof. by rewrite HD by auto. }
  rewrite !map_app in *. cbn [map].
  apply StronglySorted_app in Hs as (S1 & S2 & S3). apply StronglySorted_app in S2 as (_ & S2 & _).
  rewrite (Hm L) by (intros; apply elem_of_app; auto). rewrite (Hm R) by (intros; apply elem_of_app; auto).
  assert (keyof D' q = key) as -> by exact Hq.
  apply StronglySorted_app. split_and!; [done| |].
  - constructor; [done|]. apply Forall_forall. intros x (k & -> & Hk)%elem_of_list_fmap. by apply HR.
  - intros x y (k & -> & Hk)%elem_of_list_fmap [->|Hy]%elem_of_cons; [by apply HL|].
    apply S3; [by apply elem_of_list_fmap_1|]. apply elem_of_app. by right.
Qed.

Lemma ksorted_del D D' (L R M : list nat) :
  ksorted D (L ++ M ++ R) -> (forall k, k ∈ L ++ R -> D' k = D k) -> ksorted D' (L ++ R).
Proof.
  intros Hs HD. unfold ksorted in *.
  replace (map (keyof D') (L ++ R)) with (map (keyof D) (L ++ R)).
  2:{ apply map_ext_in. intros k Hk%elem_of_list_In. unfold keyof. by rewrite HD by auto. }
  rewrite !map_app in *. apply StronglySorted_app in Hs as (S1 & S2 & S3). apply StronglySorted_app in S2 as (_ & S2 & _).
  apply StronglySorted_app. split_and!; [done|done|]. intros x y Hx Hy. apply S3; [done|]. apply elem_of_app. by right.
Qed.

Section put.
  Context (fuel : nat) (key : bytes) (value : option bytes) (cas : option kvdata -> kvdata -> bool) (s : st) (m : list kvdata) (t : option tree).
  Local Notation C := (core s).
  Local Notation H := (headed C).
  Local Notation e := (KV (length H) key value).
  Local Notation e' := (KV (length C) key value).
  Local Notation old := (lookup_key key m).

  (** What is left of a put once the path to the key has been read. *)
  Definition put_tail (mt : option nat) (p : path) : prog (option nat * option nat) :=
    if cas old e' then
      r <- put_loop (bool_decide (is_Some mt)) (length C) [] p (Changes (length C) key value []) ;;
      put_done (fun ch => add_changes ch ;; Ret (mt, Some (length C))) r
    else Ret (mt, None).

  Lemma swp_put_tail {BB : Base} T mt tp p (Q : option nat * option nat -> st -> Prop) (E : stop -> st -> Prop) s3 :
    valid C -> rep C m (Some T) -> chain_small C -> u64 (blen key) ->
    match value with None => True | Some x => u64 (blen x) end ->
    desc (kd C) (Finite key) T mt tp ->
    (cas old e' = false -> forall s', core s' = C -> okh s' (Some T) -> oracle s' `suffix_of` oracle s -> Q (kv_seq <$> old, None) s') ->
    (cas old e' = true -> forall s' T', wrote C (Some T) (put_ghost C key (Some T)) key value (put_entry e' m) s' T' ->
       oracle s' `suffix_of` oracle s -> Q (kv_seq <$> old, Some (length C)) s') ->
    (cas old e' = true -> forall s', losing (oracle s) -> core s' = C -> hwf s' -> E (SErr EHypercore) s') ->
    (cas old e' = true -> forall s' T', losing (oracle s) -> wrote C (Some T) (put_ghost C key (Some T)) key value (put_entry e' m) s' T' -> E (SErr EHypercore) s') ->
    core s3 = C -> okh s3 (Some T) -> oracle s3 `suffix_of` oracle s -> cpath s3 p tp ->
    swp (put_tail mt p) Q E s3.
  Proof.
    intros HV Hr Hsm Hku Hvu Hd HQ0 HQ1 HE1 HE2 Hc3 Hok3 Ho3 Hp. pose proof Hr as (Hl2 & h & HW & Hm).
    pose proof (wf_shape _ _ _ _ HW) as Hsh. pose proof (wf_sort _ _ _ _ HW) as Hso.
    pose proof (desc_lookup _ _ _ _ _ _ Hd Hsh Hso) as Hlk. rewrite <-Hm in Hlk.
    destruct (desc_split _ _ _ _ _ _ Hd Hsh Hso) as (L0 & R0 & HF & HL0 & HR0 & Hm0).
    assert (kv_seq <$> old = mt) as Hseq.
    { rewrite Hlk. destruct mt as [q|]; [|done]. cbn [fmap option_fmap option_map]. f_equal. unfold kd. by destruct (blk C q). }
    rewrite Hseq in HQ0, HQ1. unfold put_tail.
    destruct (cas old e') eqn:Ecas.
    - eapply (m_put_mut C (length C - 1) h T (oracle s3)); [exact HW|lia|apply Hok3|done|apply Hok3|done|exact Hd|done|].
      intros L R s4 ch HF' HL HR Hmk HMu. apply swp_bind.
      assert (forall k, k ∈ L ++ R -> k ∈ flat T) as Hin.
      { intros k. rewrite HF', !elem_of_app. intuition. }
      assert (forall k, k ∈ L ++ R -> (1 <= k < length C)%nat /\ is_Some (blk C k)) as Hk.
      { intros k Hk%Hin. destruct (wf_keys _ _ _ _ HW k Hk). split; [lia|done]. }
      assert (forall s' T', wrote C (Some T) (fun T' => T' = fst (pput (length C) 0 (bool_decide (is_Some mt)) (length C) [] tp)) key value (put_entry e' m) s' T' ->
         wrote C (Some T) (put_ghost C key (Some T)) key value (put_entry e' m) s' T') as Hgh.
      { intros s' T' [(TT & HG & HT') W2 W3 W4 W5 W6]. split; try done. exists TT. split; [|done]. by exists mt, tp. }
      eapply (commit_mut C (length C - 1) h T (oracle s3) _ key value (L ++ length C :: R) h (S h) (2 * h + 3) s4 ch (put_entry e' m));
        [exact HW|lia|lia|done|exact HMu| | | |done|lia|lia|done|done| | |].
      + intros k [Hk'|[->|Hk']%elem_of_cons]%elem_of_app; [right; apply Hk; set_solver|by left|right; apply Hk; set_solver].
      + intros raw b Hb Hbk. rewrite HF' in Hso. eapply (ksorted_put (kd C)); [exact Hso|exact HL|exact HR| |].
        * intros k Hk'. apply kd_app. by apply Hk.
        * unfold kd. by rewrite Hb.
      + intros raw b Hb Hbk Hbv. rewrite Hm, HF', !map_app. cbn [map].
        rewrite (put_around key (map (kd C) L) (map (kd C) R)).
        * assert (kd (C ++ [raw]) (length C) = KV (length C) key value) as -> by (unfold kd; by rewrite Hb, Hbk, Hbv).
          f_equal; [|f_equal]; apply map_ext_in; intros k Hk'%elem_of_list_In; symmetry; apply kd_app; apply Hk; set_solver.
        * intros x (k & -> & Hk')%elem_of_list_fmap. by apply HL.
        * intros x (k & -> & Hk')%elem_of_list_fmap. by apply HR.
        * intros x Hx. destruct mt as [q0|]; [|by apply elem_of_nil in Hx]. apply elem_of_list_singleton in Hx. subst x. by apply Hmk.
        * done.
      + intros s' T' Hwr Ho. apply swp_ret. apply (HQ1 eq_refl s' T'); [by apply Hgh|]. by etrans.
      + intros s' Hc Hw Hf. apply (HE1 eq_refl); [|done|done]. by eapply losing_suffix.
      + intros s' T' Hwr Hf. apply (HE2 eq_refl s' T'); [by eapply losing_suffix|]. by apply Hgh.
    - apply swp_ret. by apply HQ0.
  Qed.

  Lemma swp_put_cas {BB : Base} (Q : option nat * option nat -> st -> Prop) (E : stop -> st -> Prop) :
    valid C -> rep C m t -> okh s t -> chain_small C -> (length C <= fuel)%nat -> u64 (blen key) ->
    match value with None => True | Some x => u64 (blen x) end ->
    (cas old e = false -> forall s', core s' = H -> okh s' t -> oracle s' `suffix_of` oracle s -> Q (kv_seq <$> old, None) s') ->
    (cas old e = true -> forall s' T', wrote H t (put_ghost H key t) key value (put_entry e m) s' T' ->
       oracle s' `suffix_of` oracle s -> Q (kv_seq <$> old, Some (length H)) s') ->
    (forall x s', failing x (oracle s) -> intact s s' t -> E (SErr x) s') ->
    (cas old e = true -> forall s', losing (oracle s) -> core s' = H -> hwf s' -> E (SErr EHypercore) s') ->
    (cas old e = true -> forall s' T', losing (oracle s) -> wrote H t (put_ghost H key t) key value (put_entry e m) s' T' -> E (SErr EHypercore) s') ->
    swp (tree_put_cas fuel key value cas) Q E s.
  Proof.
    intros HV Hr Hok Hsm Hfuel Hku Hvu HQ0 HQ1 HE0 HE1 HE2. unfold tree_put_cas. apply swp_bind.
    eapply swp_root_true; [exact Hr|exact Hok| | |exact HE0].
    - intros -> s1 Hc1 [Hw1 _] Ho1. unfold version. apply swp_bind. apply swp_core_len. rewrite Hc1.
      destruct Hr as [Hl ->].
      assert (length H = 1) as HL. { rewrite headed_length. unfold with_header. lia. }
      cbn [lookup_key List.find fmap option_fmap option_map] in *.
      destruct (cas None e) eqn:Ecas.
      + rewrite HL. eapply put_first; rewrite ?Hc1; try done.
        * by apply headed_valid.
        * intros s' T' Hwr Ho. rewrite HL in HQ1. apply (HQ1 eq_refl s' T'); [exact Hwr|]. by etrans.
        * intros s' Hc Hw Hf. apply HE1; [done| |done|done]. by eapply losing_suffix.
        * intros s' T' Hwr Hf. apply (HE2 eq_refl s' T'); [by eapply losing_suffix|]. by rewrite HL.
      + apply swp_ret. apply HQ0; [done|done|done|done].
    - intros T n s1 -> Hx1 Hn1 Hl1. pose proof Hr as (Hl2 & h & HW & Hm).
      assert (H = C) as HH by (apply headed_some; lia). rewrite HH in *.
      unfold version. apply swp_bind. apply swp_core_len. rewrite (sx_core _ _ Hx1).
      pose proof (okh_sext _ _ _ _ Hr Hx1 Hok) as Hok1. pose proof (rep_sext _ _ _ _ Hx1 Hr) as Hr1.
      pose proof (okh_ready _ _ _ Hr1 Hok1) as Hrd1. rewrite (sx_core _ _ Hx1) in Hrd1.
      pose proof (wft_height _ _ _ _ HW) as Hhv. pose proof (wf_shape _ _ _ _ HW) as Hsh. pose proof (wf_sort _ _ _ _ HW) as Hso.
      assert (sEok E s) as HEr.
      { intros x s' Hx _ Hf%hit_failing. apply HE0; [done|]. by eapply intact_sext. }
      apply swp_bind. eapply (swp_nearest_node (kd C)); [apply Hok1|exact Hrd1|apply Hsh|done|lia|exact Hn1|exact Hl1| |by eapply sEok_sext].
      intros mt p tp s2 Hx2 Hw2 Hd Hp.
      assert (sext s s2) as Hx02 by (by eapply sext_trans).
      pose proof (desc_lookup _ _ _ _ _ _ Hd Hsh Hso) as Hlk. rewrite <-Hm in Hlk.
      destruct (desc_split _ _ _ _ _ _ Hd Hsh Hso) as (L0 & R0 & HF & HL0 & HR0 & Hm0).
      apply swp_bind.
      assert (forall s3, sext s2 s3 -> swp (put_tail mt p) Q E s3) as Hmain.
      { intros s3 Hx3. assert (sext s s3) as Hx03 by (by eapply sext_trans).
        eapply (swp_put_tail T mt tp); try done; [apply Hx03|exact (okh_sext _ _ _ _ Hr Hx03 Hok)|apply Hx03|].
        eapply spath_cpath, (spath_mono s2); done. }
      destruct mt as [q0|].
      + assert (exists u i tp', tp = (u, i) :: tp' /\ tkeys u !! i = Some q0 /\ u ∈ subs T) as (u & i & tp' & -> & Hi & Hu).
        { destruct (desc_zip _ _ _ _ _ _ 0 Hd (proj1 Hsh)) as (b & i & tp' & g & -> & Hch & _ & _ & _ & _ & Hf); [right; lia|done|].
          exists b, i, tp'. split_and!; [done|apply Hf|by eapply chain_subs]. }
        destruct p as [|[n' i'] p]; [by inversion Hp|]. pose proof Hp as Hp'. apply Forall2_cons in Hp as [(Hi' & Hn' & _) _].
        cbn [fst snd] in *. subst i'. cbn [head]. apply swp_bind. eapply swp_unwrap; [done|]. apply swp_bind.
        eapply (swp_get_key_value (kd C)); [done|exact Hn'|exact Hi| | |by eapply sEok_sext].
        { eapply wft_kok; [exact HW|apply Hx02|]. rewrite HF. set_solver. }
        intros s3 Hx3 Hw3. apply swp_ret. change (Some (kd C q0)) with (kd C <$> Some q0). rewrite <-Hlk. by apply Hmain.
      + apply swp_ret. change None with (kd C <$> None) at 1. rewrite <-Hlk. apply Hmain. apply sext_refl.
  Qed.
End put.

Section del.
  Context (fuel : nat) (key : bytes) (cas : kvdata -> bool) (s : st) (m : list kvdata) (t : option tree).
  Local Notation C := (core s).
  Local Notation old := (lookup_key key m).

  Lemma swp_del_cas_g {BB : Base} (Q : option (bool * nat) -> st -> Prop) (E : stop -> st -> Prop) :
    valid C -> rep C m t -> okh s t -> chain_small C -> (length C <= fuel)%nat -> u64 (blen key) ->
    (old = None -> forall s', sext s s' -> Q None s') ->
    (forall e, old = Some e -> cas e = false -> forall s', sext s s' -> Q (Some (false, kv_seq e)) s') ->
    (forall e, old = Some e -> cas e = true -> forall s' T', wrote C t (del_ghost C key t) key None (remove_key key m) s' T' ->
       oracle s' `suffix_of` oracle s -> Q (Some (true, kv_seq e)) s') ->
    (forall x s', failing x (oracle s) -> sext s s' -> E (SErr x) s') ->
    (forall e, old = Some e -> cas e = true -> forall x s', failing x (oracle s) -> core s' = C -> hwf s' -> E (SErr x) s') ->
    (forall e, old = Some e -> cas e = true -> forall s' T', losing (oracle s) ->
       wrote C t (del_ghost C key t) key None (remove_key key m) s' T' -> E (SErr EHypercore) s') ->
    swp (tree_del_cas_g fuel key cas) Q E s.
  Proof.
    intros HV Hr Hok Hsm Hfuel Hku HQ0 HQf HQ1 HE0 HE1 HE2. unfold tree_del_cas_g. apply swp_bind.
    assert (sEok E s) as HEr.
    { intros x s' Hx _ Hf%hit_failing. by apply HE0. }
    eapply swp_get_root; [exact Hr|exact Hok| | |exact HEr].
    - intros ->. destruct Hr as [_ ->]. apply swp_ret. apply HQ0; [done|apply sext_refl].
    - intros T n s1 -> Hx1 Hn1 Hl1. pose proof Hr as (Hl2 & h & HW & Hm).
      pose proof (okh_sext _ _ _ _ Hr Hx1 Hok) as Hok1. pose proof (rep_sext _ _ _ _ Hx1 Hr) as Hr1.
      pose proof (okh_ready _ _ _ Hr1 Hok1) as Hrd1. rewrite (sx_core _ _ Hx1) in Hrd1.
      pose proof (wft_height _ _ _ _ HW) as Hhv. pose proof (wf_shape _ _ _ _ HW) as Hsh. pose proof (wf_sort _ _ _ _ HW) as Hso.
      apply swp_bind. eapply (swp_nearest_node (kd C)); [apply Hok1|exact Hrd1|apply Hsh|done|lia|exact Hn1|exact Hl1| |by eapply sEok_sext].
      intros mt p tp s2 Hx2 Hw2 Hd Hp.
      assert (sext s s2) as Hx02 by (by eapply sext_trans).
      pose proof (desc_lookup _ _ _ _ _ _ Hd Hsh Hso) as Hlk. rewrite <-Hm in Hlk.
      destruct (desc_split _ _ _ _ _ _ Hd Hsh Hso) as (L0 & R0 & HF & HL0 & HR0 & Hm0).
      destruct mt as [q0|]; [|apply swp_ret; by apply HQ0].
      cbn [fmap option_fmap option_map] in Hlk.
      assert (exists u i tp', tp = (u, i) :: tp' /\ tkeys u !! i = Some q0 /\ u ∈ subs T) as (u & i & tp' & -> & Hi & Hu).
      { destruct (desc_zip _ _ _ _ _ _ 0 Hd (proj1 Hsh)) as (b & i & tp' & g & -> & Hch & _ & _ & _ & _ & Hf); [right; lia|done|].
        exists b, i, tp'. split_and!; [done|apply Hf|by eapply chain_subs]. }
      destruct p as [|[n' i'] p]; [by inversion Hp|]. pose proof Hp as Hp'. apply Forall2_cons in Hp as [(Hi' & Hn' & _) _].
      cbn [fst snd] in *. subst i'. cbn [head]. apply swp_bind. eapply swp_unwrap; [done|]. apply swp_bind.
      eapply (swp_get_key_value (kd C)); [done|exact Hn'|exact Hi| | |by eapply sEok_sext].
      { eapply wft_kok; [exact HW|apply Hx02|]. rewrite HF. set_solver. }
      intros s3 Hx3 Hw3. assert (sext s s3) as Hx03 by (by eapply sext_trans).
      pose proof (okh_sext _ _ _ _ Hr Hx03 Hok) as Hok3.
      assert (kv_seq (kd C q0) = q0) as Hseq by (unfold kd; by destruct (blk C q0)).
      destruct (cas (kd C q0)) eqn:Ecas.
      + unfold version. apply swp_bind. apply swp_core_len. rewrite (sx_core _ _ Hx03).
        pose proof (sx_oracle _ _ Hx03) as Ho3.
        eapply (m_del_mut C (length C - 1) h T (oracle s3) HW ltac:(lia) fuel key s3 ((n', i) :: p) _ q0 (fun ch => add_changes ch ;; Ret (Some (true, q0))));
          [apply Hok3|apply Hx03|apply Hok3|done|lia|exact Hd| | |].
        { eapply (spath_mono s2); done. }
        2:{ intros x s' Hc Hw Hf. eapply HE1; [exact Hlk|done| |done|done]. by eapply failing_suffix. }
        intros L R s4 ch HF' HL HR Hmk HMu. apply swp_bind.
        assert (forall k, k ∈ L ++ R -> k ∈ flat T) as Hin.
        { intros k. rewrite HF', !elem_of_app, elem_of_cons. intuition. }
        assert (forall k, k ∈ L ++ R -> (1 <= k < length C)%nat /\ is_Some (blk C k)) as Hk.
        { intros k Hk%Hin. destruct (wf_keys _ _ _ _ HW k Hk). split; [lia|done]. }
        assert (forall s' T', wrote C (Some T) (fun T' => exists b tp0 len D, dplace (kd C) ((u, i) :: tp') b tp0 /\ pdel (length C) b tp0 = Some (T', len, D)) key None (remove_key key m) s' T' ->
           wrote C (Some T) (del_ghost C key (Some T)) key None (remove_key key m) s' T') as Hgh.
        { intros s' T' [(TT & (b & tp0 & len & D & HG1 & HG2) & HT') W2 W3 W4 W5 W6]. split; try done. exists TT. split; [|done].
          exists T, q0, ((u, i) :: tp'), b, tp0, len, D. done. }
        eapply (commit_mut C (length C - 1) h T (oracle s3) _ key None (L ++ R) (h - 1) h (2 * h + 1) s4 ch (remove_key key m));
          [exact HW|lia|lia|done|exact HMu| | | |done|lia|lia|done|done| | |].
        * intros k Hk'. right. by apply Hk.
        * intros raw b Hb Hbk. rewrite HF' in Hso. eapply (ksorted_del (kd C) _ L R [q0]); [exact Hso|].
          intros k Hk'. apply kd_app. by apply Hk.
        * intros raw b Hb Hbk Hbv. rewrite Hm, HF', !map_app. cbn [map].
          rewrite (remove_around key (map (kd C) L) (map (kd C) R)).
          -- f_equal; apply map_ext_in; intros k Hk'%elem_of_list_In; symmetry; apply kd_app; apply Hk; set_solver.
          -- intros x (k & -> & Hk')%elem_of_list_fmap. by apply HL.
          -- intros x (k & -> & Hk')%elem_of_list_fmap. by apply HR.
          -- done.
        * intros s' T' Hwr Ho. apply swp_ret. rewrite <-Hseq. eapply (HQ1 _ Hlk Ecas s' T'); [by apply Hgh|]. by etrans.
        * intros s' Hc Hw Hf. eapply (HE1 _ Hlk Ecas); [|done|done]. apply losing_failing. by eapply losing_suffix.
        * intros s' T' Hwr Hf. eapply (HE2 _ Hlk Ecas s' T'); [by eapply losing_suffix|]. by apply Hgh.
      + apply swp_ret. rewrite <-Hseq. by eapply (HQf _ Hlk).
  Qed.
  Lemma swp_del_cas {BB : Base} (Q : option (bool * nat) -> st -> Prop) (E : stop -> st -> Prop) :
    valid C -> rep C m t -> okh s t -> chain_small C -> (length C <= fuel)%nat -> u64 (blen key) ->
    (old = None -> forall s', sext s s' -> Q None s') ->
    (forall e, old = Some e -> cas e = false -> forall s', sext s s' -> Q (Some (false, kv_seq e)) s') ->
    (forall e, old = Some e -> cas e = true -> forall s' T', wrote C t (del_ghost C key t) key None (remove_key key m) s' T' ->
       oracle s' `suffix_of` oracle s -> Q (Some (true, kv_seq e)) s') ->
    (forall x s', failing x (oracle s) -> sext s s' -> E (SErr x) s') ->
    (forall e, old = Some e -> cas e = true -> forall x s', failing x (oracle s) -> core s' = C -> hwf s' -> E (SErr x) s') ->
    (forall e, old = Some e -> cas e = true -> forall s' T', losing (oracle s) ->
       wrote C t (del_ghost C key t) key None (remove_key key m) s' T' -> E (SErr EHypercore) s') ->
    swp (tree_del_cas fuel key cas) Q E s.
  Proof.
    intros HV Hr Hok Hsm Hfuel Hku HQ0 HQf HQ1 HE0 HE1 HE2.
    eapply ck_rwp; [apply ck_del_cas|apply swp_del_cas_g; eauto; intros; (split; [eauto|done])].
  Qed.
End del.
