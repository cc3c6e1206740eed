(** The mutation phase of put and del, from the descent to the finished changes. *)
From Coq.Strings Require Import Byte.
From Coq Require Import Lia Sorting.Sorted.
From stdpp Require Import prelude gmap.
From Verif Require Import Bytes Codec Model Order Wp Store Tree Iter Read Zip Pure Seq Mut MutDel Guard.

Local Arguments decode_block : simpl never.
Local Arguments blocks_get : simpl never.

(** ** The tree stored at a version *)

(** [T] is the tree whose root is node 0 of block [v] of core [C]. *)
Record wft (C : list bytes) (v h : nat) (T : tree) : Prop := {
  wf_tref : tref T = (v, 0);
  wf_shape : rshape h T;
  wf_node : forall u, u ∈ subs T -> cnode C (tref u) = Some (node_of u);
  wf_seq : forall r, r ∈ refs T -> (1 <= fst r <= v)%nat;
  wf_off : forall r, r ∈ refs T -> (N.of_nat (snd r) < 2 ^ 52)%N;
  wf_nodup : NoDup (refs T);
  wf_keys : forall k, k ∈ flat T -> (1 <= k <= v)%nat /\ is_Some (blk C k);
  wf_sort : ksorted (kd C) (flat T) }.

(** What the handle sees agrees with the core. *)
(** Where a deletion takes a key out of a leaf: [b] is that leaf without the key
    and the zipper leads to it; the key of an inner node is replaced. *)
Inductive dplace (D : nat -> kvdata) : zipper -> tree -> zipper -> Prop :=
| dp_leaf b i tp : tkids b = [] -> dplace D ((b, i) :: tp) (del_key i b) tp
| dp_right u ci tp lc rc m1 lb li ltp m2 rb ri rtp dk rest :
    tkids u !! ci = Some lc -> tkids u !! S ci = Some rc ->
    desc D PosInf lc m1 ((lb, li) :: ltp) -> desc D NegInf rc m2 ((rb, ri) :: rtp) ->
    (length (tkeys lb) < length (tkeys rb))%nat -> tkeys rb = dk :: rest ->
    dplace D ((u, ci) :: tp) (Nd (tref rb) rest (tkids rb)) (rtp ++ (set_key ci dk u, S ci) :: tp)
| dp_left u ci tp lc rc m1 lb li ltp m2 rb ri rtp dk rest :
    tkids u !! ci = Some lc -> tkids u !! S ci = Some rc ->
    desc D PosInf lc m1 ((lb, li) :: ltp) -> desc D NegInf rc m2 ((rb, ri) :: rtp) ->
    (length (tkeys rb) <= length (tkeys lb))%nat -> tkeys lb = rest ++ [dk] ->
    dplace D ((u, ci) :: tp) (Nd (tref lb) rest (tkids lb)) (ltp ++ (set_key ci dk u, ci) :: tp).

Definition coh (s : st) (T : tree) : Prop := forall r, r ∈ refs T -> hnode s r = cnode (core s) r.

Lemma kd_key C k b : blk C k = Some b -> kd C k = KV k (b_key b) (b_value b).
Proof. unfold kd. by intros ->. Qed.

Lemma wft_kok C v h T s k : wft C v h T -> core s = C -> k ∈ flat T -> kok (kd C) s k.
Proof.
  intros HW Hc Hk. destruct (wf_keys _ _ _ _ HW k Hk) as [_ [b Hb]]. exists b. rewrite Hc. split; [done|]. by apply kd_key.
Qed.

Lemma sub_ready C v h T s u : wft C v h T -> core s = C -> u ∈ subs T ->
  (forall r, r ∈ refs u -> hnode s r = cnode C r) -> ready (kd C) s u.
Proof.
  intros HW Hc Hu Hco w Hw. assert (w ∈ subs T) as HwT by (by eapply subs_trans). split.
  - rewrite Hco; [by eapply wf_node|]. apply elem_of_refs. by exists w.
  - apply Forall_forall. intros k Hk. eapply wft_kok; [done|done|].
    apply (elem_of_flat_sub h); [apply (wf_shape _ _ _ _ HW)|]. by exists w.
Qed.

Lemma refs_sub_refs t u r : u ∈ subs t -> r ∈ refs u -> r ∈ refs t.
Proof.
  intros Hu (w & Hw & <-)%elem_of_refs. apply elem_of_refs. exists w. split; [|done]. by eapply subs_trans.
Qed.

Section mut.
  Context (C : list bytes) (v h0 : nat) (T0 : tree) (o : list fault).
  Hypothesis HW : wft C v h0 T0.
  Hypothesis Hv : length C = S v.
  Local Notation RS := (refs T0).
  Local Notation MI := (MI C RS o).
  Local Notation q := (length C).
  Local Notation Ebad := (Ebad C o).
  Local Notation Rt := (Rt C).
  Local Notation told := (told C).

  Lemma told_sub u : u ∈ subs T0 -> told u.
  Proof.
    intros Hu w Hw. assert (w ∈ subs T0) as HwT by (by eapply subs_trans). split; [by eapply wf_node|].
    apply Forall_forall. intros r Hr. pose proof (wf_seq _ _ _ _ HW r (refs_sub_refs _ _ _ HwT Hr)). lia.
  Qed.

  Lemma chain_zold t tp : chain t tp T0 -> zold C tp.
  Proof.
    revert t. induction tp as [|[u i] tp IH]; intros t; [constructor|].
    intros [Hi Hc]. apply Forall_cons. split; [|by eapply IH].
    pose proof (chain_subs _ _ _ Hc) as Hu.
    assert (forall c, c ∈ tkids u -> told c) as Hk.
    { intros c Hc'. apply told_sub. eapply subs_trans; [done|]. eapply subs_kid; [done|apply subs_self]. }
    split; apply Forall_forall; intros c Hc'; apply Hk; simpl in Hc'.
    - apply elem_of_list_lookup in Hc' as [j Hj]. apply lookup_take_Some in Hj as [Hj _]. by eapply elem_of_list_lookup_2.
    - apply elem_of_list_lookup in Hc' as [j Hj]. rewrite lookup_drop in Hj. by eapply elem_of_list_lookup_2.
  Qed.

  Lemma zok_okz g lo tp : zok g lo tp -> okz tp.
  Proof.
    revert g. induction tp as [|[u i] tp IH]; intros g; [constructor|].
    intros (Hl & _ & _ & Hi & _ & _ & Hz). apply Forall_cons. split; [done|by eapply IH].
  Qed.

  Lemma MI_init s : hwf s -> core s = C -> coh s T0 -> oracle s = o -> MI [] ∅ s.
  Proof.
    intros Hw Hc Hco Ho. split; try done.
    - by rewrite Ho.
    - intros r Hr _. rewrite <-Hc. by apply Hco.
  Qed.

  Lemma claim_path M K s p tp : MI M K s -> spath_ok s p tp -> NoDup (prefs tp) ->
    (forall r, r ∈ prefs tp -> r ∈ RS) -> (forall r, r ∈ prefs tp -> r ∉ M) ->
    exists K', MI (prefs tp ++ M) K' s /\ pK K' p tp /\ NoDup (map fst p) /\
      (forall n, n ∈ map fst p -> K !! n = None) /\ (forall n, n ∉ map fst p -> K' !! n = K !! n).
  Proof.
    intros HM Hp. induction Hp as [|[n i] [u j] p tp (Hij & Hh & Hl) Hp IH]; intros Hnd Hrs Hr.
    - exists K. split_and!; try done; [constructor|constructor|by intros ? ?%elem_of_nil].
    - simpl in *. subst j. apply NoDup_cons in Hnd as [Hu Hnd]. destruct IH as (K' & I1 & I2 & I3 & I4 & I5).
      { done. }
      { intros r Hr'. apply Hrs. by right. }
      { intros r Hr'. apply Hr. by right. }
      destruct (MI_claim _ _ _ _ _ _ (tref u) n (node_of u) I1) as [J1 J2].
      { rewrite elem_of_app. intros [?|?]; [done|]. eapply Hr; [left|done]. }
      { apply Hrs. left. }
      { done. }
      { done. }
      assert (n ∉ map fst p) as Hn.
      { intros Hn. destruct (pK_dom _ _ _ _ I2 Hn). congruence. }
      exists (<[n := node_of u]> K'). split_and!.
      + done.
      + constructor; [split; [done|by rewrite lookup_insert]|]. eapply pK_mono; [|exact I2].
        intros n' Hn'. rewrite lookup_insert_ne; [done|]. by intros <-.
      + by constructor.
      + intros n' [->|Hn']%elem_of_cons; [|by apply I4]. by rewrite <-I5.
      + intros n' Hn'. apply not_elem_of_cons in Hn' as [? ?]. rewrite lookup_insert_ne by done. by apply I5.
  Qed.

  (** The path is held once its nodes have the contents of the nodes of the tree,
      whether or not the cache still leads to them. *)
  Definition cpath (s : st) (p : path) (tp : zipper) : Prop :=
    Forall2 (fun (x : nid * nat) (y : tree * nat) => snd x = snd y /\ heap s !! fst x = Some (node_of (fst y))) p tp.
  Lemma spath_cpath s p tp : spath_ok s p tp -> cpath s p tp.
  Proof. intros H. eapply Forall2_impl; [exact H|]. intros [n i] [u j] (H1 & H2 & _). done. Qed.

  Lemma wft_flat_nodup : NoDup (flat T0).
  Proof.
    pose proof (wf_sort _ _ _ _ HW) as Hs. unfold ksorted in Hs. revert Hs. generalize (flat T0) as l.
    induction l as [|k l IH]; intros Hs; [constructor|]. simpl in Hs. apply StronglySorted_cons in Hs as [H1 H2].
    constructor; [|by apply IH]. intros Hk. eapply (blt_irrefl (keyof (kd C) k)). apply H2. by apply elem_of_list_fmap_1.
  Qed.

  Lemma claim_cpath s p tp : MI [] ∅ s -> coh s T0 -> cpath s p tp -> NoDup (prefs tp) ->
    (forall u i, (u, i) ∈ tp -> u ∈ subs T0) ->
    exists K', MI (prefs tp) K' s /\ pK K' p tp /\ NoDup (map fst p) /\ (forall n, n ∉ map fst p -> K' !! n = None).
  Proof.
    intros HM Hco Hp. induction Hp as [|[n i] [u j] p tp (Hij & Hh) Hp IH]; intros Hnd Hsub.
    - exists ∅. split_and!; try done; constructor.
    - simpl in *. subst j. apply NoDup_cons in Hnd as [Hu Hnd]. destruct IH as (K' & I1 & I2 & I3 & I5).
      { done. }
      { intros u' i' Hin. eapply Hsub. right. exact Hin. }
      assert (u ∈ subs T0) as Hus by (eapply Hsub; left).
      assert (forall u', u' ∈ subs T0 -> heap s !! n = Some (node_of u') -> u' = u) as Hinj.
      { intros u' Hu' He. rewrite Hh in He. injection He as He1 He2.
        eapply (node_inj h0 T0); [apply (wf_shape _ _ _ _ HW)|apply wft_flat_nodup|done|done|].
        unfold node_of. by rewrite He1, He2. }
      assert (n ∉ map fst p) as Hn.
      { intros Hn. apply Hu. clear I1 I2 I3 I5 Hu Hnd. induction Hp as [|[n' i'] [u' j'] p tp [_ Hh'] Hp IH]; simpl in *; [by apply elem_of_nil in Hn|].
        apply elem_of_cons in Hn as [->|Hn].
        - rewrite (Hinj u'); [left| |done]. eapply Hsub. right. left.
        - right. apply IH; [|done]. intros u1 i1 Hin. eapply Hsub. apply elem_of_cons in Hin as [->|Hin]; [left|]. right. right. done. }
      assert (K' !! n = None) as Hkn by (by apply I5).
      exists (<[n := node_of u]> K'). split_and!.
      + eapply MI_claim_alone; [done|done|done|]. intros r' Hr' Hl'. pose proof (Hco r' Hr') as Hc'.
        apply elem_of_refs in Hr' as (u' & Hu' & <-). rewrite (loc_hnode _ _ _ Hl'), (mi_core _ _ _ _ _ _ HM) in Hc'.
        rewrite (wf_node _ _ _ _ HW u' Hu') in Hc'. by rewrite (Hinj u').
      + constructor; [split; [done|by rewrite lookup_insert]|]. eapply pK_mono; [|exact I2].
        intros n' Hn'. rewrite lookup_insert_ne; [done|]. by intros <-.
      + by constructor.
      + intros n' Hn'. apply not_elem_of_cons in Hn' as [? ?]. rewrite lookup_insert_ne by done. by apply I5.
  Qed.

  (** What the mutation phase leaves behind. *)
  Definition Mutd (P : tree -> Prop) (key : bytes) (value : option bytes) (F : list nat) (hmin hmax lmax : nat) (s : st) (ch : changes) : Prop :=
    exists M K T h olds, P T /\ Done C RS o M key value T (length (ch_nodes ch)) s ch K /\ rshape h T /\ flat T = F /\
      tref T = (q, length (ch_nodes ch) - 1) /\ (hmin <= h <= hmax)%nat /\ (0 < length (ch_nodes ch) <= lmax)%nat /\
      refs T ≡ₚ olds ++ news q 0 (length (ch_nodes ch)) /\ M ++ olds ≡ₚ RS.

  Definition put_done {B} (k : changes -> prog B) (r : put_result) : prog B :=
    match r with
    | PutReady ch' => k ch'
    | PutNewRoot key cs ch' =>
        n <- node_new (Node [key] cs) ;;
        let '(_, ch'') := add_node n ch' in k ch''
    end.

  Lemma Forall_told_kids u : u ∈ subs T0 -> forall K nodes, Forall (Rt K nodes) (tkids u).
  Proof.
    intros Hu K nodes. apply Forall_forall. intros c Hc. apply told_Rt, told_sub.
    eapply subs_trans; [done|]. eapply subs_kid; [done|apply subs_self].
  Qed.

  Lemma prefs_nodup b i tp : chain b tp T0 -> NoDup (prefs ((b, i) :: tp)) /\ (forall r, r ∈ prefs ((b, i) :: tp) -> r ∈ RS).
  Proof.
    intros Hc. pose proof (chain_refs _ _ _ Hc) as Hp. pose proof (wf_nodup _ _ _ _ HW) as Hn.
    rewrite (refs_kids b) in Hp. split.
    - rewrite Hp in Hn. simpl in Hn |- *. apply NoDup_cons in Hn as [H1 H2].
      apply NoDup_cons. split; [intros Hx; apply H1; rewrite !elem_of_app; auto|].
      apply NoDup_app in H2 as (_ & _ & H2). by apply NoDup_app in H2 as (? & _ & _).
    - intros r Hr. rewrite Hp. simpl in *. rewrite elem_of_cons in *. rewrite !elem_of_app. tauto.
  Qed.

  Lemma m_put_mut {B} key value s p tpf m (k : changes -> prog B) (Q : B -> st -> Prop) (E : stop -> st -> Prop) :
    hwf s -> core s = C -> coh s T0 -> oracle s = o ->
    desc (kd C) (Finite key) T0 m tpf -> cpath s p tpf ->
    (forall L R s' ch', flat T0 = L ++ (match m with Some q0 => [q0] | None => [] end) ++ R ->
       (forall k, k ∈ L -> blt (kv_key (kd C k)) key) -> (forall k, k ∈ R -> blt key (kv_key (kd C k))) ->
       (forall q0, m = Some q0 -> kv_key (kd C q0) = key) ->
       Mutd (fun T => T = fst (pput q 0 (bool_decide (is_Some m)) q [] tpf)) key value (L ++ q :: R) h0 (S h0) (2 * h0 + 3) s' ch' -> swp (k ch') Q E s') ->
    swp (pbind (put_loop (bool_decide (is_Some m)) q [] p (Changes q key value [])) (put_done k)) Q E s.
  Proof.
    intros Hw Hc Hco Ho Hd Hp HQ.
    destruct (wf_shape _ _ _ _ HW) as [Hs0 Hr0]. pose proof (wf_sort _ _ _ _ HW) as Hsort.
    destruct (desc_zip _ _ _ _ _ _ 1 Hd Hs0) as (b & i & tp & g & -> & Hch & Hlen & Hz & Hsb & H4 & Hf).
    { destruct Hr0 as [->|Hne]; [by left|right]. destruct (tkeys T0); [done|simpl; lia]. }
    { done. }
    destruct (prefs_nodup b i tp Hch) as [Hnd Hin].
    destruct (claim_cpath _ _ _ (MI_init s Hw Hc Hco Ho) Hco Hp Hnd) as (K & M1 & M2 & M3 & M5).
    { intros u j [[= -> ->]|Hx]%elem_of_cons; [by eapply chain_subs|by eapply chain_path_subs]. }
    pose proof (chain_subs _ _ _ Hch) as Hbs. pose proof (chain_zold _ _ Hch) as Hzo.
    pose proof (zok_okz _ _ _ Hz) as Hoz.
    pose proof (chain_refs _ _ _ Hch) as Hcr. rewrite (refs_kids b) in Hcr.
    pose proof (chain_flat _ _ _ _ _ Hch Hz) as Hfl.
    destruct (pput q 0 (bool_decide (is_Some m)) q [] ((b, i) :: tp)) as [T len'] eqn:Epp.
    assert (exists L R, flat T0 = L ++ (match m with Some q0 => [q0] | None => [] end) ++ R /\
       (forall k, k ∈ L -> blt (kv_key (kd C k)) key) /\ (forall k, k ∈ R -> blt key (kv_key (kd C k))) /\
       (forall q0, m = Some q0 -> kv_key (kd C q0) = key) /\
       okhd (bool_decide (is_Some m)) [] (b, i) /\
       exists h olds, (h0 <= h <= S h0)%nat /\ good q h (L ++ q :: R) olds 0 T len' /\ (len' <= 2 * h0 + 3)%nat /\
         prefs ((b, i) :: tp) ++ olds ≡ₚ RS) as (L & R & EF & FL & FR & FM & Hhd & h & olds & Hh & HG & HL & Holds).
    { destruct m as [q0|].
      - rewrite bool_decide_eq_true_2 in Epp |- * by (by eexists). destruct Hf as [Hi Hk].
        destruct (pput_match q tp g b i q0 q 0 T len' Epp Hsb Hi Hz H4) as [HG HL].
        rewrite (flat_key b g i q0 Hsb Hi) in Hfl.
        assert (flat T0 = (ctx_l tp ++ kl b i) ++ q0 :: (kr b i ++ ctx_r tp)) as EF.
        { rewrite Hfl. rewrite <-!app_assoc. done. }
        simpl in Hk. apply bytes_cmp_eq in Hk. unfold keyof in Hk.
        unfold ksorted in Hsort. rewrite EF, map_app in Hsort. cbn [map] in Hsort.
        apply StronglySorted_app in Hsort as (S1 & S2 & S3). apply StronglySorted_cons in S2 as [S4 S5].
        exists (ctx_l tp ++ kl b i), (kr b i ++ ctx_r tp). split_and!.
        + done.
        + intros k0 Hk0. rewrite Hk. apply (S3 (keyof (kd C) k0)); [by apply elem_of_list_fmap_1|left].
        + intros k0 Hk0. rewrite Hk. apply (S5 (keyof (kd C) k0)). by apply elem_of_list_fmap_1.
        + intros ? [= <-]. done.
        + split; [|by left]. apply lookup_lt_Some in Hi. done.
        + exists h0, (concat (map refs (tkids b)) ++ sibs tp). split; [lia|]. split.
          * rewrite Hlen in HG. rewrite <-!app_assoc in *. done.
          * split; [lia|]. rewrite Hcr. simpl. solve_Permutation.
      - rewrite bool_decide_eq_false_2 in Epp |- * by (by intros [? ?]). destruct Hf as (Hl & Hi & F1 & F2).
        assert (g = 0) as -> by (destruct g; [done|by apply shape_nonleaf in Hsb]).
        destruct (pput_leaf q tp b i q 0 T len' Epp Hsb Hi Hz H4) as [(h & Hh & HG) HL].
        exists (ctx_l tp ++ take i (tkeys b)), (drop i (tkeys b) ++ ctx_r tp). split_and!.
        + rewrite Hfl. destruct b as [rb ksb csb]. simpl in Hl. subst csb. simpl. rewrite <-!app_assoc. f_equal.
          by rewrite app_assoc, take_drop.
        + intros k0 Hk0. apply F1 in Hk0. simpl in Hk0. by apply bytes_cmp_gt.
        + intros k0 Hk0. by apply F2 in Hk0.
        + done.
        + by split; [|left].
        + exists h, (sibs tp). split; [lia|]. split.
          * rewrite <-!app_assoc in *. done.
          * split; [lia|]. rewrite Hcr, Hl. simpl. solve_Permutation. }
    apply swp_bind.
    assert (forall M' s' ch' K', MI M' K' s' -> M' = prefs ((b, i) :: tp) -> Done C RS o M' key value T len' s' ch' K' ->
      swp (k ch') Q E s') as HQ'.
    { intros M' s' ch' K' HM' -> HD. eapply (HQ L R); try done.
      destruct HG as [G1 G2 G3 G4 G5]. exists (prefs ((b, i) :: tp)), K', T, h, olds.
      pose proof (dn_len _ _ _ _ _ _ _ _ _ _ _ HD) as Hl. rewrite <-Hl.
      split_and!; try done; try lia. }
    change [] with (map tref []) at 1.
    eapply (m_put_loop C RS o p (bool_decide (is_Some m)) q [] ((b, i) :: tp) K _ s (Changes q key value []) T len');
      [exact M1|exact M2|by rewrite app_nil_r|done|constructor|constructor| |exact Epp| |].
    - split_and!; [done| |by apply zold_zR|].
      + simpl. by apply Forall_told_kids.
      + eapply Forall_impl; [exact Hoz|]. intros [u j] [H1 H2]. unfold okfr. simpl in *. split; [done|lia].
    - intros K' s' ch' HD. cbn [put_done]. eapply HQ'; [apply HD|done|exact HD].
    - intros K' s' ch' k' cs' D1 D2 D3 D4 D5 D6 D7 -> ->. cbn [put_done]. apply swp_bind.
      eapply m_new; [exact D1|]. intros n s1 Hn D1' _. unfold add_node. rewrite D3.
      assert (n ∉ ch_nodes ch') as Hnn. { intros Hx. rewrite Forall_forall in D6. destruct (D6 _ Hx). congruence. }
      assert (MI (prefs ((b, i) :: tp)) (<[n:=Node [k'] (map tref cs')]> K') s1) as D1'' by done.
      eapply HQ'; [exact D1''|done|]. split; cbn [ch_nodes ch_seq ch_key ch_value]; try done.
      + by apply NoDup_fresh.
      + rewrite app_length. simpl. lia.
      + apply Rt_intro.
        * left. split; [done|]. exists n. simpl. split; [by rewrite lookup_app_r, Nat.sub_diag by lia|].
          by rewrite lookup_insert.
        * simpl. eapply Forall_impl; [exact D7|]. intros c. apply Rt_mono; [by apply prefix_app_r|].
          intros n' Hn'. rewrite lookup_insert_ne; [done|]. by intros <-.
  Qed.

  (** *** Deletion *)
  Lemma m_finish {B} bottom bi b p3 tp M K s key T len D (k : changes -> prog B) (Q : B -> st -> Prop) (E : stop -> st -> Prop) :
    MI M K s -> pK K ((bottom, bi) :: p3) ((b, bi) :: tp) -> NoDup (map fst ((bottom, bi) :: p3)) ->
    loc s (tref b) bottom ->
    match tp with (f, i) :: _ => map tref (tkids f) !! i = Some (tref b) | [] => True end ->
    okz tp -> zold C tp -> NoDup (sibs tp) -> (forall r, r ∈ sibs tp -> r ∈ RS /\ r ∉ M) -> tkids b = [] ->
    pdel q b tp = Some (T, len, D) ->
    (forall K' s' ch', Done C RS o (D ++ M) key None T len s' ch' K' -> (forall r, r ∈ D -> r ∈ sibs tp) -> swp (k ch') Q E s') ->
    Ebad E ->
    swp (nk <- num_keys bottom ;;
         '(child, p4, ch') <-
           (if negb (bool_decide (p3 = [])) && (nk <? min_keys MAX_KEYS)%nat
            then repair_g p3 MAX_KEYS (Changes q key None [])
            else let '(r, ch1) := add_node bottom (Changes q key None []) in Ret (r, p3, ch1)) ;;
         ch'' <- propagate ch' p4 child ;; k ch'') Q E s.
  Proof.
    intros HM Hp Hnd Hloc Hsel Hokz Hzo Hns Hs Hleaf Hpd HQ HE.
    inversion Hp as [|? ? ? ? [_ Hb] Hp']; subst. simpl in Hb.
    simpl in Hnd. apply NoDup_cons in Hnd as [Hn1 Hnd].
    apply swp_bind. eapply m_num_keys; [exact HM|exact Hb|]. cbn [node_of n_keys]. change (min_keys MAX_KEYS) with 4.
    apply swp_bind. unfold pdel in Hpd.
    destruct (pfix q b tp) as [[[[t tpr] len1] D1]|] eqn:Ef; [|done].
    destruct (pprop q len1 tpr t) as [T1 len2] eqn:Epp. injection Hpd as -> -> ->.
    assert (forall K' s' ch' p', MI (D ++ M) K' s' -> pK K' p' tpr -> NoDup (map fst p' ++ ch_nodes ch') ->
       len1 = length (ch_nodes ch') -> ch_seq ch' = q -> ch_key ch' = key -> ch_value ch' = None ->
       Rt K' (ch_nodes ch') t -> zold C tpr -> okz tpr -> (forall r, r ∈ D -> r ∈ sibs tp) ->
       swp (pbind (propagate ch' p' (tref t)) k) Q E s') as Hfin.
    { intros K' s' ch' p' B1 B2 B3 B4 B5 B6 B7 B8 B9 B10 B11. apply swp_bind.
      eapply (m_propagate C RS o p' tpr t K' _ s' ch'); [exact B1|exact B2|exact B3|done|done|by apply zold_zR| |by rewrite <-B4|].
      - eapply Forall_impl; [exact B10|]. intros [u i] [H1 H2]. simpl in *. lia.
      - intros K2 s2 ch2 A1 A2 A3 A4 A5 A6 A7. apply (HQ K2); [|done]. split; try done; congruence. }
    assert (Some (Nd (q, 0) (tkeys b) (tkids b), tp, 1, []) = Some (t, tpr, len1, D) ->
      swp (let '(r, ch1) := add_node bottom (Changes q key None []) in Ret (r, p3, ch1))
        (fun '(child, p4, ch') s' => swp (pbind (propagate ch' p4 child) k) Q E s') E s) as Hdone.
    { intros [= <- <- <- <-]. unfold add_node. cbn [ch_seq ch_nodes ch_key ch_value length app]. apply swp_ret.
      change (q, 0) with (tref (Nd (q, 0) (tkeys b) (tkids b))). apply (Hfin K); try done.
      - cbn [ch_nodes]. by apply NoDup_fresh.
      - apply Rt_intro.
        + left. split; [done|]. by exists bottom.
        + simpl. rewrite Hleaf. constructor.
      - by intros ? ?%elem_of_nil. }
    eapply (swp_mono _ (fun '(child, p4, ch') s' => swp (pbind (propagate ch' p4 child) k) Q E s')); [|done|].
    { intros [[child p4] ch'] s'. done. }
    unfold pfix in Ef. destruct tp as [|[f i] tp].
    - inversion Hp'; subst. rewrite bool_decide_eq_true_2 by done. cbn [negb andb]. by apply Hdone.
    - inversion Hp' as [|[fn fi] ? p' ? [Hfi Hf] Hp'']; subst. simpl in Hfi, Hf. subst fi.
      rewrite bool_decide_eq_false_2 by done. cbn [negb andb].
      destruct (Nat.ltb_spec (length (tkeys b)) 4) as [H4|H4]; [|by apply Hdone].
      cbn [repair_g]. apply swp_bind.
      eapply m_get_child_held; [exact HM|exact Hf|exact Hsel|exact Hloc|exact Hb| |exact HE].
      intros s1 HM1 _.
      eapply (m_repair_loop C RS o p' fn f i bottom b tp M K (Changes q key None []) s1); try done.
      + cbn [ch_nodes]. rewrite app_nil_r. by apply NoDup_cons.
      + constructor.
      + rewrite Hleaf. constructor.
  Qed.

  Lemma pK_app K p1 t1 p2 t2 : pK K p1 t1 -> pK K p2 t2 -> pK K (p1 ++ p2) (t1 ++ t2).
  Proof. apply Forall2_app. Qed.

  Lemma prefs_app a b : prefs (a ++ b) = prefs a ++ prefs b.
  Proof. unfold prefs. by rewrite map_app. Qed.

  Lemma m_take sd n ci u cj c tp p K s ln li lp lb ltp dk rest (Q : path -> st -> Prop) (E : stop -> st -> Prop) :
    MI (prefs ((u, ci) :: tp)) K s ->
    K !! n = Some (Node (take ci (tkeys u) ++ drop (S ci) (tkeys u)) (map tref (tkids u))) ->
    pK K p tp -> NoDup (n :: map fst p) -> (ci < length (tkeys u))%nat ->
    chain u tp T0 -> tkids u !! cj = Some c -> chain lb ltp c ->
    spath_ok s ((ln, li) :: lp) ((lb, li) :: ltp) -> vop sd (tkeys lb) = Some (dk, rest) ->
    (forall K' s', MI (prefs (((lb, li) :: ltp) ++ (u, ci) :: tp)) K' s' ->
       pK K' (((ln, li) :: lp) ++ (n, cj) :: p) (((Nd (tref lb) rest (tkids lb), li) :: ltp) ++ (set_key ci dk u, cj) :: tp) ->
       NoDup (map fst (((ln, li) :: lp) ++ (n, cj) :: p)) -> loc s' (tref lb) ln ->
       Q (((ln, li) :: lp) ++ (n, cj) :: p) s') ->
    swp (pbind (pbind (node_mod ln (on_keys (vop sd))) (fun donor => Ret (cj, donor, (ln, li) :: lp)))
          (fun '(child_index, key, bottom) =>
             node_mod n (on_keys (fun ks => only (vec_insert ci key ks))) ;; Ret (bottom ++ (n, child_index) :: p))) Q E s.
  Proof.
    intros HM Hn Hp Hnd Hci Hch Hc Hchl Hsp Hvop HQ.
    assert (chain lb (ltp ++ (u, cj) :: tp) T0) as Hch2.
    { apply chain_app. exists c. split; [done|]. simpl. done. }
    destruct (prefs_nodup lb li _ Hch2) as [Hnd2 Hin2].
    assert (prefs ((lb, li) :: ltp ++ (u, cj) :: tp) = prefs ((lb, li) :: ltp) ++ prefs ((u, ci) :: tp)) as Epr.
    { change ((lb, li) :: ltp ++ (u, cj) :: tp) with (((lb, li) :: ltp) ++ (u, cj) :: tp). rewrite prefs_app. done. }
    rewrite Epr in Hnd2. apply NoDup_app in Hnd2 as (N1 & N2 & N3).
    assert (forall r, r ∈ prefs ((lb, li) :: ltp) -> r ∈ RS) as Hin3.
    { intros r Hr. apply Hin2. rewrite Epr, elem_of_app. by left. }
    destruct (claim_path _ _ _ _ _ HM Hsp N1 Hin3 N2) as (K1 & M1 & M2 & M3 & M4 & M5).
    assert (loc s (tref lb) ln) as Hloc. { inversion Hsp as [|? ? ? ? (_ & _ & Hl) _]; subst. done. }
    assert (K1 !! ln = Some (node_of lb)) as Hln. { inversion M2 as [|? ? ? ? [_ Hl] _]; subst. done. }
    assert (forall n', n' ∈ n :: map fst p -> n' ∉ map fst ((ln, li) :: lp)) as Hdis.
    { intros n' Hn' Hx. apply M4 in Hx. apply elem_of_cons in Hn' as [->|Hn']; [congruence|].
      destruct (pK_dom _ _ _ _ Hp Hn'). congruence. }
    assert (n ∉ map fst ((ln, li) :: lp)) as Hnl by (apply Hdis; left).
    assert (n <> ln) as Hnln. { intros ->. apply Hnl. left. }
    apply swp_bind, swp_bind.
    eapply (m_mod _ _ _ _ _ s ln); [exact M1|exact Hln| |].
    { unfold on_keys. cbn [node_of n_keys n_children]. rewrite Hvop. reflexivity. }
    intros s1 HM1 Hl1. apply swp_ret. apply swp_bind.
    eapply (m_mod _ _ _ _ _ s1 n); [exact HM1| | |].
    { rewrite lookup_insert_ne by done. rewrite M5 by done. exact Hn. }
    { unfold on_keys, vec_insert. cbn [n_keys n_children]. rewrite app_length, take_length, drop_length.
      destruct (Nat.leb_spec ci (ci `min` length (tkeys u) + (length (tkeys u) - S ci))) as [_|]; [|lia].
      cbn [only fmap option_fmap option_map].
      rewrite take_app_alt by (rewrite take_length; lia). rewrite drop_app_alt by (rewrite take_length; lia).
      rewrite <-insert_take_drop by done. reflexivity. }
    intros s2 HM2 Hl2. apply swp_ret.
    eapply (HQ _ s2).
    - change (((lb, li) :: ltp) ++ (u, ci) :: tp) with (((lb, li) :: ltp) ++ [(u, ci)] ++ tp). rewrite prefs_app.
      exact HM2.
    - apply pK_app.
      + inversion M2 as [|? ? ? ? [_ _] M2']; subst. simpl in M3. apply NoDup_cons in M3 as [M31 M32].
        constructor.
        * split; [done|]. cbn [fst]. rewrite lookup_insert_ne, lookup_insert by done. done.
        * eapply pK_mono; [|exact M2']. intros n' Hn'. rewrite !lookup_insert_ne; [done|by intros ->|].
          intros ->. apply Hnl. by right.
      + constructor.
        * split; [done|]. cbn [fst]. rewrite lookup_insert. done.
        * eapply pK_mono; [|exact Hp]. intros n' Hn'.
          assert (n' ∉ map fst ((ln, li) :: lp)) as Hx by (apply Hdis; by right).
          rewrite !lookup_insert_ne; [by apply M5|intros ->; apply Hx; left|].
          intros ->. by apply NoDup_cons in Hnd as [? _].
    - rewrite map_app. apply NoDup_app. split_and!; [done| |done]. intros n' H1 H2. by apply (Hdis n').
    - by apply Hl2, Hl1.
  Qed.

  Lemma chain_sublist t tp T h : shape h T -> chain t tp T -> sublist (flat t) (flat T).
  Proof.
    intros Hs. revert t. induction tp as [|[u i] tp IH]; intros t.
    - intros ->. done.
    - intros [Hi Hc]. destruct (shape_sub _ _ _ Hs (chain_subs _ _ _ Hc)) as (h' & _ & Hu).
      etrans; [by eapply kid_sublist|by apply IH].
  Qed.

  Lemma chain_ready u ci tp K s c j : MI (prefs ((u, ci) :: tp)) K s -> chain u tp T0 -> tkids u !! j = Some c ->
    ready (kd C) s c /\ tref c ∈ RS /\ tref c ∉ prefs ((u, ci) :: tp) /\ cnode C (tref c) = Some (node_of c) /\ ksorted (kd C) (flat c).
  Proof.
    intros HM Hch Hj. pose proof (chain_subs _ _ _ Hch) as Hu.
    assert (c ∈ tkids u) as Hcu by (by eapply elem_of_list_lookup_2).
    assert (c ∈ subs T0) as Hc. { eapply subs_trans; [done|]. eapply subs_kid; [done|apply subs_self]. }
    assert (chain c ((u, j) :: tp) T0) as Hch2 by done.
    pose proof (chain_refs _ _ _ Hch2) as Hp. pose proof (wf_nodup _ _ _ _ HW) as Hn. rewrite Hp in Hn.
    apply NoDup_app in Hn as (_ & Hd & _).
    assert (forall r, r ∈ refs c -> r ∈ RS /\ r ∉ prefs ((u, ci) :: tp)) as Hr.
    { intros r Hr. split; [by eapply refs_sub_refs|]. intros Hx. apply (Hd r Hr). apply elem_of_app. by left. }
    assert (tref c ∈ refs c) as Hrc by (rewrite refs_kids; left).
    split_and!.
    - eapply sub_ready; [done|apply (mi_core _ _ _ _ _ _ HM)|done|]. intros r Hr'. destruct (Hr r Hr').
      by apply (mi_coh _ _ _ _ _ _ HM).
    - by apply Hr.
    - by apply Hr.
    - by eapply wf_node.
    - destruct (wf_shape _ _ _ _ HW) as [Hs0 _].
      pose proof (wf_sort _ _ _ _ HW) as Hsort. eapply ksorted_sublist; [|exact Hsort].
      by eapply chain_sublist.
  Qed.

  Lemma m_side {B} key n nd u ci j c g fuel tp K s (k : nid -> path -> nat -> prog B) (Q : B -> st -> Prop) (E : stop -> st -> Prop) :
    MI (prefs ((u, ci) :: tp)) K s -> K !! n = Some nd -> n_children nd = map tref (tkids u) ->
    chain u tp T0 -> tkids u !! j = Some c -> shape g c -> (g < fuel)%nat ->
    (forall m x xi p b tp' s', sext s s' -> MI (prefs ((u, ci) :: tp)) K s' -> desc (kd C) key c m ((b, xi) :: tp') ->
       ksorted (kd C) (flat c) -> spath_ok s' ((x, xi) :: p) ((b, xi) :: tp') ->
       swp (k x ((x, xi) :: p) (length (tkeys b))) Q E s') ->
    Ebad E ->
    swp (child <- get_child n j ;;
         '(_, p) <- nearest_node fuel child key ;;
         '(x, _) <- unwrap (head p) ;;
         nk <- num_keys x ;; k x p nk) Q E s.
  Proof.
    intros HM Hn Hnd Hch Hj Hsc Hg HQ HE.
    destruct (chain_ready u ci tp K s c j HM Hch Hj) as (_ & R1 & R2 & R3 & R4).
    apply swp_bind. eapply m_read; [exact HM|exact Hn| |exact R1|exact R2|exact R3| |exact HE].
    { rewrite Hnd. change (map tref (tkids u)) with (tref <$> tkids u). by rewrite list_lookup_fmap, Hj. }
    intros cn s1 HM1 Hl1 Hh1 Hx1. apply swp_bind.
    eapply swp_nearest_node; [apply HM1| |exact Hsc|exact R4|exact Hg|exact Hh1|exact Hl1| |by eapply Ebad_sEok].
    { by eapply chain_ready. }
    intros m p tp' s2 Hx2 Hw2 Hd Hp.
    destruct (desc_zip _ _ _ _ _ _ 0 Hd Hsc) as (b & xi & tp2 & g' & -> & _); [right; lia|done|].
    inversion Hp as [|[x xj] ? p' ? (Hxi & Hhx & Hlx) Hp']; subst. simpl in Hxi, Hhx. subst xj.
    cbn [head]. apply swp_bind. eapply swp_unwrap; [done|]. apply swp_bind.
    eapply swp_num_keys; [exact Hhx|]. cbn [node_of n_keys].
    eapply HQ; [by eapply sext_trans|by eapply MI_sext|exact Hd|done|exact Hp].
  Qed.

  (** [replace_removed_internal_key_with_a_key_from_leaf]. *)
  Lemma m_replace fuel n ci u g q0 tp p K s (Q : path -> st -> Prop) (E : stop -> st -> Prop) :
    MI (prefs ((u, ci) :: tp)) K s ->
    K !! n = Some (Node (take ci (tkeys u) ++ drop (S ci) (tkeys u)) (map tref (tkids u))) ->
    pK K p tp -> NoDup (n :: map fst p) -> tkeys u !! ci = Some q0 ->
    chain u tp T0 -> shape (S g) u -> zok (S g) 1 tp -> (match tp with [] => 1 | _ => 4 end <= length (tkeys u))%nat ->
    (g < fuel)%nat ->
    (forall K' s' b b0 bn bi p' tp' tp0, MI (prefs ((b0, bi) :: tp0)) K' s' ->
       pK K' ((bn, bi) :: p') ((b, bi) :: tp') -> NoDup (map fst ((bn, bi) :: p')) -> loc s' (tref b) bn ->
       chain b0 tp0 T0 -> tref b = tref b0 -> tkids b0 = [] -> tkids b = [] -> (3 <= length (tkeys b))%nat -> shape 0 b ->
       zok 0 1 tp' -> length tp' = (S g + length tp)%nat -> tp' <> [] -> sibs tp' = sibs tp0 -> zold C tp' ->
       match tp' with (f, i) :: _ => map tref (tkids f) !! i = Some (tref b) | [] => True end ->
       ctx_l tp' ++ tkeys b ++ ctx_r tp' = ctx_l tp ++ (kl u ci ++ kr u ci) ++ ctx_r tp ->
       dplace (kd C) ((u, ci) :: tp) b tp' ->
       Q ((bn, bi) :: p') s') ->
    Ebad E ->
    swp (replace_removed fuel p n ci) Q E s.
  Proof.
    intros HM Hn Hp Hnd Hci Hch Hsu Hz H4 Hfuel HQ HE.
    pose proof (lookup_lt_Some _ _ _ Hci) as Hlt. pose proof (shape_kids_length _ _ Hsu) as Hlen.
    destruct (lookup_lt_is_Some_2 (tkids u) ci ltac:(lia)) as [lc Hlc].
    destruct (lookup_lt_is_Some_2 (tkids u) (S ci) ltac:(lia)) as [rc Hrc].
    destruct (shape_kids g u lc Hsu) as [L4 Lsh]; [by eapply elem_of_list_lookup_2|].
    destruct (shape_kids g u rc Hsu) as [R4 Rsh]; [by eapply elem_of_list_lookup_2|].
    unfold replace_removed.
    eapply m_side; [exact HM|exact Hn|done|exact Hch|exact Hlc|exact Lsh|done| |exact HE].
    intros m1 ln li lp lb ltp s1 Hx1 HM1 Hd1 Hks1 Hsp1. cbn beta.
    replace (ci + 1)%nat with (S ci) by lia.
    eapply m_side; [exact HM1|exact Hn|done|exact Hch|exact Hrc|exact Rsh|done| |exact HE].
    intros m2 rn ri rp rb rtp s2 Hx2 HM2 Hd2 Hks2 Hsp2. cbn beta.
    destruct (desc_pos_inf _ _ _ _ _ Hd1 Lsh (or_intror L4) Hks1) as (? & ? & ? & [= <- <- <-] & Lch & Llen & Lz & Lb & Lk & Lctx).
    destruct (desc_neg_inf _ _ _ _ _ Hd2 Rsh (or_intror R4) Hks2) as (? & ? & ? & [= <- <- <-] & Rch & Rlen & Rz & Rb & Rk & Rctx).
    assert (forall b t c, chain b t c -> (t <> [] -> 4 <= length (tkeys b))%nat -> (4 <= length (tkeys c))%nat -> (4 <= length (tkeys b))%nat) as Hk4.
    { intros b t c Hc H1 H2. destruct t as [|x t]; [by simpl in Hc; subst|by apply H1]. }
    pose proof (Hk4 _ _ _ Lch Lk L4) as Lk'. pose proof (Hk4 _ _ _ Rch Rk R4) as Rk'.
    assert (forall sd cj c x xi xp b t dk rest, vop sd (tkeys b) = Some (dk, rest) -> tkids u !! cj = Some c -> (cj <= length (tkeys u))%nat ->
      chain b t c -> length t = g -> zok 0 4 t -> shape 0 b -> (4 <= length (tkeys b))%nat -> length (tkeys b) = S (length rest) ->
      spath_ok s2 ((x, xi) :: xp) ((b, xi) :: t) ->
      ctx_l (t ++ (set_key ci dk u, cj) :: tp) ++ rest ++ ctx_r (t ++ (set_key ci dk u, cj) :: tp) = ctx_l tp ++ (kl u ci ++ kr u ci) ++ ctx_r tp ->
      dplace (kd C) ((u, ci) :: tp) (Nd (tref b) rest (tkids b)) (t ++ (set_key ci dk u, cj) :: tp) ->
      swp (pbind (pbind (node_mod x (on_keys (vop sd))) (fun donor => Ret (cj, donor, (x, xi) :: xp)))
          (fun '(child_index, key, bottom) =>
             node_mod n (on_keys (fun ks => only (vec_insert ci key ks))) ;; Ret (bottom ++ (n, child_index) :: p))) Q E s2) as Htake.
    { intros sd cj c x xi xp b t dk rest Hvop Hcj Hcjl Hcb Ht Hzt Hsb Hb4 Hrest Hsp Hfl Hdp.
      eapply (m_take sd n ci u cj c tp p K s2 x xi xp b t dk rest); try done.
      intros K' s' A1 A2 A3 A4.
      assert (chain b (t ++ (u, cj) :: tp) T0) as Hcb'. { apply chain_app. exists c. by split. }
      pose proof (shape_leaf _ Hsb) as Hleaf.
      eapply (HQ K' s' (Nd (tref b) rest (tkids b)) b x xi (xp ++ (n, cj) :: p) (t ++ (set_key ci dk u, cj) :: tp) (t ++ (u, cj) :: tp)); try done.
      - simpl in A1 |- *. rewrite prefs_app in *. done.
      - simpl. lia.
      - destruct b as [rb' ksb csb]. simpl in *. destruct Hsb as [-> ?]. split; [done|lia].
      - apply zok_app. rewrite Ht. split; [done|]. rewrite Nat.add_0_r. by apply set_key_zok.
      - rewrite app_length. simpl. lia.
      - by destruct t.
      - apply sibs_set_key.
      - apply chain_zold in Hcb'. unfold zold in *. rewrite Forall_app in *. destruct Hcb' as [B1 B2]. split; [done|].
        apply Forall_cons in B2 as [B2 B3]. apply Forall_cons. done.
      - destruct t as [|[f i] t]; simpl in Hcb.
        + subst c. simpl. change (map tref (tkids u)) with (tref <$> tkids u). by rewrite list_lookup_fmap, Hcj.
        + destruct Hcb as [Hi _]. simpl. change (map tref (tkids f)) with (tref <$> tkids f). by rewrite list_lookup_fmap, Hi. }
    destruct (Nat.ltb_spec (length (tkeys lb)) (length (tkeys rb))) as [Hlr|Hlr].
    - destruct (tkeys rb) as [|dk rest] eqn:Er; [simpl in Rk'; lia|].
      eapply (Htake SRight (S ci) rc rn ri rp rb rtp dk rest); rewrite ?Er; try done.
      + eapply del_right_flat; try done. by apply shape_leaf.
      + eapply dp_right; try done. by rewrite Er.
    - destruct (exists_last (l := tkeys lb)) as (rest & dk & Er); [by intros E0; rewrite E0 in Lk'; simpl in Lk'; lia|].
      eapply (Htake SLeft ci lc ln li lp lb ltp dk rest); rewrite ?Er; try done.
      + simpl. unfold vec_pop. rewrite last_snoc. rewrite app_length. simpl.
        replace (length rest + 1 - 1)%nat with (length rest) by lia. by rewrite take_app.
      + lia.
      + by rewrite <-Er.
      + rewrite app_length. simpl. lia.
      + by eapply spath_mono.
      + eapply del_left_flat; try done. by apply shape_leaf.
      + by eapply dp_left.
  Qed.

  Lemma olds_split D X S0 n : D ++ X ≡ₚ S0 ++ news q 0 n -> NoDup S0 -> (forall r, r ∈ S0 -> r ∈ RS) ->
    (forall r, r ∈ D -> r ∈ S0) -> exists olds, S0 ≡ₚ D ++ olds /\ X ≡ₚ olds ++ news q 0 n.
  Proof.
    intros HP Hnd Hs HD.
    assert (NoDup (D ++ X)) as HN.
    { rewrite HP. apply NoDup_app. split_and!; [done| |apply NoDup_news]. intros r H1 H2%elem_of_news.
      pose proof (wf_seq _ _ _ _ HW r (Hs r H1)). lia. }
    apply NoDup_app in HN as (HN & _ & _).
    assert (D ⊆+ S0) as Hsub by (by apply NoDup_submseteq).
    apply submseteq_Permutation in Hsub as [olds Ho]. exists olds. split; [done|].
    apply (Permutation_app_inv_l D). rewrite HP, Ho. solve_Permutation.
  Qed.

  Lemma m_del_mut {B} fuel key s p tpf q0 (k : changes -> prog B) (Q : B -> st -> Prop) (E : stop -> st -> Prop) :
    hwf s -> core s = C -> coh s T0 -> oracle s = o -> (h0 < fuel)%nat ->
    desc (kd C) (Finite key) T0 (Some q0) tpf -> spath_ok s p tpf ->
    (forall L R s' ch', flat T0 = L ++ q0 :: R ->
       (forall k, k ∈ L -> blt (kv_key (kd C k)) key) -> (forall k, k ∈ R -> blt key (kv_key (kd C k))) ->
       kv_key (kd C q0) = key ->
       Mutd (fun T => exists b tp len D, dplace (kd C) tpf b tp /\ pdel q b tp = Some (T, len, D)) key None (L ++ R) (h0 - 1) h0 (2 * h0 + 1) s' ch' -> swp (k ch') Q E s') ->
    Ebad E ->
    swp ('(cur, ci) <- unwrap (head p) ;;
         let p1 := tail p in
         node_mod cur (on_keys (vec_remove ci)) ;;
         leaf <- is_leaf cur ;;
         p2 <- (if (leaf : bool) then Ret ((cur, ci) :: p1) else replace_removed fuel p1 cur ci) ;;
         '(bottom, _) <- unwrap (head p2) ;;
         let p3 := tail p2 in
         nk <- num_keys bottom ;;
         '(child, p4, ch') <-
           (if negb (bool_decide (p3 = [])) && (nk <? min_keys MAX_KEYS)%nat
            then repair_g p3 MAX_KEYS (Changes q key None [])
            else let '(r, ch1) := add_node bottom (Changes q key None []) in Ret (r, p3, ch1)) ;;
         ch'' <- propagate ch' p4 child ;; k ch'') Q E s.
  Proof.
    intros Hw Hc Hco Ho Hfuel Hd Hp HQ HE.
    destruct (wf_shape _ _ _ _ HW) as [Hs0 Hr0]. pose proof (wf_sort _ _ _ _ HW) as Hsort.
    destruct (desc_zip _ _ _ _ _ _ 1 Hd Hs0) as (b & i & tp & g & -> & Hch & Hlen & Hz & Hsb & H4 & Hf).
    { destruct Hr0 as [->|Hne]; [by left|right]. destruct (tkeys T0); [done|simpl; lia]. }
    { done. }
    destruct Hf as [Hi Hk].
    destruct (prefs_nodup b i tp Hch) as [Hnd Hin].
    destruct (claim_path _ _ _ _ _ (MI_init s Hw Hc Hco Ho) Hp Hnd Hin) as (K & M1 & M2 & M3 & M4 & M5); [by intros ? _ ?%elem_of_nil|].
    rewrite app_nil_r in M1.
    destruct p as [|[cur ci] p1]; [by inversion Hp|].
    apply Forall2_cons in Hp as [(Hci & Hhc & Hlc) _]. simpl in Hci, Hlc. subst ci. clear Hhc.
    apply Forall2_cons in M2 as [[_ Hb] M2']. simpl in Hb.
    pose proof (chain_flat _ _ _ _ _ Hch Hz) as Hfl. rewrite (flat_key b g i q0 Hsb Hi) in Hfl.
    assert (flat T0 = (ctx_l tp ++ kl b i) ++ q0 :: (kr b i ++ ctx_r tp)) as EF.
    { rewrite Hfl. rewrite <-!app_assoc. done. }
    simpl in Hk. apply bytes_cmp_eq in Hk. unfold keyof in Hk.
    unfold ksorted in Hsort. rewrite EF, map_app in Hsort. cbn [map] in Hsort.
    apply StronglySorted_app in Hsort as (S1 & S2 & S3). apply StronglySorted_cons in S2 as [S4 S5].
    assert (forall s' ch' F, F = ctx_l tp ++ (kl b i ++ kr b i) ++ ctx_r tp ->
      Mutd (fun T => exists b' tp' len D, dplace (kd C) ((b, i) :: tp) b' tp' /\ pdel q b' tp' = Some (T, len, D)) key None F (h0 - 1) h0 (2 * h0 + 1) s' ch' -> swp (k ch') Q E s') as HQ'.
    { intros s' ch' F -> HM. eapply (HQ _ _ s' ch' EF); try done.
      + intros k0 Hk0. rewrite Hk. apply (S3 (keyof (kd C) k0)); [by apply elem_of_list_fmap_1|left].
      + intros k0 Hk0. rewrite Hk. apply (S5 (keyof (kd C) k0)). by apply elem_of_list_fmap_1.
      + rewrite <-!app_assoc in *. done. }
    clear HQ S1 S3 S4 S5.
    (* the common end *)
    assert (forall K' s' b' b0 bn bi p' tp' tp0 (Q' : B -> st -> Prop), MI (prefs ((b0, bi) :: tp0)) K' s' ->
       pK K' ((bn, bi) :: p') ((b', bi) :: tp') -> NoDup (map fst ((bn, bi) :: p')) -> loc s' (tref b') bn ->
       chain b0 tp0 T0 -> tkids b0 = [] -> tkids b' = [] -> shape 0 b' ->
       (match tp' with [] => rshape 0 b' | _ => 3 <= length (tkeys b') end)%nat ->
       zok 0 1 tp' -> length tp' = h0 -> sibs tp' = sibs tp0 -> zold C tp' ->
       match tp' with (f, i) :: _ => map tref (tkids f) !! i = Some (tref b') | [] => True end ->
       ctx_l tp' ++ tkeys b' ++ ctx_r tp' = ctx_l tp ++ (kl b i ++ kr b i) ++ ctx_r tp ->
       dplace (kd C) ((b, i) :: tp) b' tp' ->
       swp ('(bottom, _) <- unwrap (head ((bn, bi) :: p')) ;;
         let p3 := tail ((bn, bi) :: p') in
         nk <- num_keys bottom ;;
         '(child, p4, ch') <-
           (if negb (bool_decide (p3 = [])) && (nk <? min_keys MAX_KEYS)%nat
            then repair_g p3 MAX_KEYS (Changes (length C) key None [])
            else let '(r, ch1) := add_node bottom (Changes (length C) key None []) in Ret (r, p3, ch1)) ;;
         ch'' <- propagate ch' p4 child ;; k ch'') Q E s') as Hend.
    { intros K' s' b' b0 bn bi p' tp' tp0 Q' A1 A2 A3 A4 A5 A6 A7 A8 A9 A10 A11 A12 A13 A14 A15 A16.
      destruct (pdel_ok (length C) b' tp' 0 A10 A8 A9) as (T & len & D & h & P1 & P2 & P3 & P4 & P5 & P6 & P7).
      pose proof (chain_refs _ _ _ A5) as Hcr. rewrite (refs_kids b0), A6 in Hcr. simpl in Hcr.
      pose proof (wf_nodup _ _ _ _ HW) as Hn0. rewrite Hcr in Hn0.
      assert (NoDup (sibs tp0) /\ forall r, r ∈ sibs tp0 -> r ∈ RS /\ r ∉ prefs ((b0, bi) :: tp0)) as [N1 N2].
      { apply NoDup_cons in Hn0 as [X1 X2]. apply NoDup_app in X2 as (X2 & X3 & X4). split; [done|].
        intros r Hr. split; [rewrite Hcr, elem_of_cons, elem_of_app; auto|].
        simpl. intros [->|Hx]%elem_of_cons; [apply X1, elem_of_app; auto|by apply (X3 r)]. }
      cbn [head tail]. apply swp_bind. eapply swp_unwrap; [done|]. cbn zeta.
      eapply (m_finish bn bi b' p' tp' _ K' s' key T len D k Q E); try done.
      - by eapply zok_okz.
      - by rewrite A12.
      - by rewrite A12.
      - intros K2 s2 ch2 HD HDs. rewrite A7 in P7. simpl in P7. rewrite A12 in HDs, P7.
        destruct (olds_split D (refs T) (sibs tp0) len P7 N1 (fun r Hr => proj1 (N2 r Hr)) HDs) as (olds & O1 & O2).
        eapply (HQ' s2 ch2); [reflexivity|].
        pose proof (dn_len _ _ _ _ _ _ _ _ _ _ _ HD) as Hl.
        exists (D ++ prefs ((b0, bi) :: tp0)), K2, T, h, olds. rewrite <-Hl. split_and!; try done; try lia.
        + by exists b', tp', len, D.
        + rewrite P3, <-A15. destruct b' as [rb' ksb csb]. simpl in A7. subst csb. simpl. done.
        + rewrite Hcr, O1. simpl. solve_Permutation. }
    cbn [head tail]. apply swp_bind. eapply swp_unwrap; [done|]. cbn zeta. apply swp_bind.
    eapply (m_mod _ _ _ _ _ s cur); [exact M1|exact Hb| |].
    { unfold on_keys, vec_remove. cbn [node_of n_keys n_children]. rewrite Hi. reflexivity. }
    intros s1 HM1 Hl1. apply swp_bind. eapply m_is_leaf; [exact HM1|by rewrite lookup_insert|].
    cbn [n_children]. rewrite map_length. simpl in M3. apply NoDup_cons in M3 as [N1 N2].
    assert (pK (<[cur := Node (take i (tkeys b) ++ drop (S i) (tkeys b)) (map tref (tkids b))]> K) p1 tp) as Hp1.
    { eapply pK_mono; [|exact M2']. intros n' Hn'. rewrite lookup_insert_ne; [done|]. by intros <-. }
    apply swp_bind. pose proof (lookup_lt_Some _ _ _ Hi) as Hil.
    destruct (Nat.eqb_spec (length (tkids b)) 0) as [E0|E0].
    - apply nil_length_inv in E0. apply swp_ret.
      assert (g = 0) as -> by (destruct g; [done|by apply shape_nonleaf in Hsb]).
      pose proof (shape_max _ _ Hsb) as Hmax.
      assert (shape 0 (del_key i b)) as Hsd.
      { simpl. split; [done|]. rewrite app_length, take_length, drop_length. lia. }
      eapply (Hend _ s1 (del_key i b) b cur i p1 tp tp); try done.
      + constructor; [split; [done|by rewrite lookup_insert]|done].
      + simpl. by apply NoDup_cons.
      + by apply Hl1.
      + destruct tp as [|x tp]; [split; [done|by left]|]. simpl. rewrite app_length, take_length, drop_length.
        assert (4 <= length (tkeys b))%nat by (by apply H4). lia.
      + lia.
      + by eapply chain_zold.
      + destruct tp as [|[f j] tp]; [done|]. destruct Hch as [Hj _]. simpl.
        change (map tref (tkids f)) with (tref <$> tkids f). by rewrite list_lookup_fmap, Hj.
      + unfold kl, kr. rewrite E0. cbn [del_key tkeys]. rewrite !take_nil, !drop_nil. cbn [map inter].
        by rewrite ?app_assoc.
      + by apply dp_leaf.
    - destruct g as [|g]; [by apply shape_leaf in Hsb; rewrite Hsb in E0|].
      eapply (m_replace fuel cur i b g q0 tp p1 _ s1); try done.
      + by rewrite lookup_insert.
      + by apply NoDup_cons.
      + destruct tp as [|x tp]; [lia|by apply H4].
      + lia.
      + intros K' s' b' b0 bn bi p' tp' tp0 A1 A2 A3 A4 A5 A6 A7 A8 A9 A10 A11 A12 A13 A14 A15 A16 A17 A18.
        eapply (Hend K' s' b' b0 bn bi p' tp' tp0); try done; [|lia].
        destruct tp'; [done|exact A9].
  Qed.
End mut.
