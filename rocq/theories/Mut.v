(** The writers' in-place updates simulate the ghost algorithms of Pure.v. *)
From Coq.Strings Require Import Byte.
From Coq Require Import Lia Sorting.Sorted.
From stdpp Require Import prelude gmap.
From Verif Require Import Bytes Codec Model Order Wp Store Tree Iter Read Zip Pure Seq.

Local Arguments decode_block : simpl never.
Local Arguments blocks_get : simpl never.

(** ** Ownership *)

(** [K]: the nodes the writer holds, with their contents; [M]: the references that
    lead to them.  Everything else among the references [RS] still reads as in the
    core [C]. *)
Record MI (C : list bytes) (RS : list ref) (o : list fault) (M : list ref) (K : gmap nid node) (s : st) : Prop := {
  mi_wf : hwf s;
  mi_core : core s = C;
  mi_ora : oracle s `suffix_of` o;
  mi_own : forall n nd, K !! n = Some nd -> heap s !! n = Some nd /\ forall r, r ∈ RS -> loc s r n -> r ∈ M;
  mi_coh : forall r, r ∈ RS -> r ∉ M -> hnode s r = cnode C r }.

Section mut.
  Context (C : list bytes) (RS : list ref) (o : list fault).
  Local Notation MI := (MI C RS o).

  Lemma MI_sext M K s s' : sext s s' -> MI M K s -> MI M K s'.
  Proof.
    intros Hx [H1 H2 H3 H4 H5]. assert (hwf s') as Hw' by (by eapply sext_hwf). split; [done|..].
    - by rewrite (sx_core _ _ Hx).
    - etrans; [apply (sx_oracle _ _ Hx)|done].
    - intros n nd Hn. destruct (H4 n nd Hn) as [Hh Hl]. split; [by eapply sext_heap|].
      intros r Hrs Hr. destruct (sext_loc_inv _ _ _ _ Hx Hr) as [|Hge]; [by apply Hl|].
      apply lookup_lt_Some in Hh. lia.
    - intros r Hr Hm. rewrite (sext_hnode s s') by done. by apply H5.
  Qed.

  Lemma set_heap_loc s h r n : loc (set_heap s h) r n <-> loc s r n.
  Proof. done. Qed.

  Lemma hwf_heap s h : hwf s -> (length (heap s) <= length h)%nat -> hwf (set_heap s h).
  Proof.
    intros [H1 H2] Hl. split; [|done]. intros q e He. eapply entry_ok_mono; [| |by apply H1]; done.
  Qed.

  Lemma MI_mod M K s n nd nd' : K !! n = Some nd -> MI M K s ->
    MI M (<[n := nd']> K) (set_heap s (<[n := nd']> (heap s))).
  Proof.
    intros Hn [H1 H2 H3 H4 H5]. destruct (H4 n nd Hn) as [Hh Hl].
    apply lookup_lt_Some in Hh as Hlt. split; try done.
    - apply hwf_heap; [done|]. by rewrite insert_length.
    - intros n' nd1 Hn'. apply lookup_insert_Some in Hn' as [[<- <-]|[Hne Hn']]; simpl.
      + split; [by apply list_lookup_insert|done].
      + rewrite list_lookup_insert_ne by done. by apply H4.
    - intros r Hr Hm. rewrite <-(H5 r Hr Hm). unfold hnode. simpl.
      destruct (cache s !! fst r) as [e|] eqn:Ec; [|done].
      destruct (e_nodes e !! snd r) as [n1|] eqn:En; [|done].
      destruct (decide (n = n1)) as [->|Hne]; [|by rewrite list_lookup_insert_ne].
      exfalso. apply Hm, Hl; [done|]. by exists e.
  Qed.

  Lemma MI_junk M K s js : MI M K s -> MI M K (set_heap s (heap s ++ js)).
  Proof.
    intros [H1 H2 H3 H4 H5]. split; try done.
    - apply hwf_heap; [done|]. rewrite app_length. lia.
    - intros n nd Hn. destruct (H4 n nd Hn) as [Hh Hl]. split; [by apply lookup_app_l_Some|done].
    - intros r Hr Hm. rewrite <-(H5 r Hr Hm). unfold hnode. simpl.
      destruct (cache s !! fst r) as [e|] eqn:Ec; [|done].
      destruct (e_nodes e !! snd r) as [n1|] eqn:En; [|done].
      rewrite lookup_app_l; [done|]. apply (loc_lt s r); [apply H1|by exists e].
  Qed.

  Lemma MI_new M K s nd : MI M K s ->
    K !! length (heap s) = None /\ MI M (<[length (heap s) := nd]> K) (set_heap s (heap s ++ [nd])).
  Proof.
    intros [H1 H2 H3 H4 H5]. split.
    { destruct (K !! length (heap s)) as [nd1|] eqn:E; [|done].
      apply H4 in E as [E _]. apply lookup_lt_Some in E. lia. }
    split; try done.
    - apply hwf_heap; [done|]. rewrite app_length. lia.
    - intros n' nd1 Hn'. apply lookup_insert_Some in Hn' as [[<- <-]|[Hne Hn']]; simpl.
      + split; [by rewrite lookup_app_r, Nat.sub_diag by lia|]. intros r _ Hr.
        apply (loc_lt s) in Hr; [lia|apply H1].
      + destruct (H4 n' nd1 Hn') as [Hh Hl]. split; [by apply lookup_app_l_Some|done].
    - intros r Hr Hm. rewrite <-(H5 r Hr Hm). unfold hnode. simpl.
      destruct (cache s !! fst r) as [e|] eqn:Ec; [|done].
      destruct (e_nodes e !! snd r) as [n1|] eqn:En; [|done].
      rewrite lookup_app_l; [done|]. apply (loc_lt s r); [apply H1|by exists e].
  Qed.

  Lemma MI_claim_alone M K s r n nd : MI M K s -> K !! n = None -> heap s !! n = Some nd ->
    (forall r', r' ∈ RS -> loc s r' n -> r' = r) -> MI (r :: M) (<[n := nd]> K) s.
  Proof.
    intros [H1 H2 H3 H4 H5] Hk Hh Hl. split; try done.
    - intros n' nd1 Hn'. apply lookup_insert_Some in Hn' as [[<- <-]|[Hne Hn']].
      + split; [done|]. intros r' Hrs Hr'. rewrite (Hl r' Hrs Hr'). left.
      + destruct (H4 n' nd1 Hn') as [Hh' Hl']. split; [done|]. intros r' Hrs Hr'. right. by apply Hl'.
    - intros r' Hr' Hm. apply H5; [done|]. intros Hi. apply Hm. by right.
  Qed.

  Lemma MI_claim M K s r n nd : MI M K s -> r ∉ M -> r ∈ RS -> loc s r n -> heap s !! n = Some nd ->
    K !! n = None /\ MI (r :: M) (<[n := nd]> K) s.
  Proof.
    intros HM Hr Hrs Hl Hh.
    assert (K !! n = None) as Hk.
    { destruct (K !! n) as [nd1|] eqn:E; [|done]. apply (mi_own _ _ _ _ _ _ HM) in E as [_ E]. by apply E in Hl. }
    split; [done|]. eapply MI_claim_alone; try done.
    intros r' _ Hr'. by eapply (proj2 (mi_wf _ _ _ _ _ _ HM)).
  Qed.

  Lemma MI_M M M' K s : M ⊆ M' -> MI M K s -> MI M' K s.
  Proof.
    intros Hs [H1 H2 H3 H4 H5]. split; try done.
    - intros n nd Hn. destruct (H4 n nd Hn) as [Hh Hl]. split; [done|]. intros r Hrs Hr. by apply Hs, Hl.
    - intros r Hr Hm. apply H5; [done|]. intros Hi. by apply Hm, Hs.
  Qed.

  (** Commands on owned nodes. *)
  Lemma m_num_keys M K s n nd (Q : nat -> st -> Prop) (E : stop -> st -> Prop) :
    MI M K s -> K !! n = Some nd -> Q (length (n_keys nd)) s -> swp (num_keys n) Q E s.
  Proof. intros HM Hn HQ. eapply swp_num_keys; [by eapply (mi_own _ _ _ _ _ _ HM)|done]. Qed.
  Lemma m_num_children M K s n nd (Q : nat -> st -> Prop) (E : stop -> st -> Prop) :
    MI M K s -> K !! n = Some nd -> Q (length (n_children nd)) s -> swp (num_children n) Q E s.
  Proof. intros HM Hn HQ. eapply swp_num_children; [by eapply (mi_own _ _ _ _ _ _ HM)|done]. Qed.
  Lemma m_is_leaf M K s n nd (Q : bool -> st -> Prop) (E : stop -> st -> Prop) :
    MI M K s -> K !! n = Some nd -> Q (length (n_children nd) =? 0)%nat s -> swp (is_leaf n) Q E s.
  Proof. intros HM Hn HQ. eapply swp_is_leaf; [by eapply (mi_own _ _ _ _ _ _ HM)|done]. Qed.
  Lemma m_node_get M K s n nd (Q : node -> st -> Prop) (E : stop -> st -> Prop) :
    MI M K s -> K !! n = Some nd -> Q nd s -> swp (node_get n) Q E s.
  Proof. intros HM Hn HQ. eapply swp_node_get; [by eapply (mi_own _ _ _ _ _ _ HM)|done]. Qed.
  Lemma m_mod {B} M K s n nd (f : node -> option (B * node)) b nd' (Q : B -> st -> Prop) (E : stop -> st -> Prop) :
    MI M K s -> K !! n = Some nd -> f nd = Some (b, nd') ->
    (forall s', MI M (<[n := nd']> K) s' -> (forall r m, loc s r m -> loc s' r m) -> Q b s') ->
    swp (node_mod n f) Q E s.
  Proof.
    intros HM Hn Hf HQ. eapply swp_node_mod; [by eapply (mi_own _ _ _ _ _ _ HM)|exact Hf|].
    apply HQ; [|done]. by eapply MI_mod.
  Qed.
  Lemma m_new M K s nd (Q : nid -> st -> Prop) (E : stop -> st -> Prop) :
    MI M K s -> (forall n s', K !! n = None -> MI M (<[n := nd]> K) s' -> (forall r m, loc s r m -> loc s' r m) -> Q n s') ->
    swp (node_new nd) Q E s.
  Proof.
    intros HM HQ. apply swp_node_new. intros js. apply (MI_junk _ _ _ js) in HM.
    destruct (MI_new M K _ nd HM) as [H1 H2]. by apply HQ.
  Qed.

  Definition Ebad (E : stop -> st -> Prop) : Prop :=
    forall e s', core s' = C -> hwf s' -> failing e o -> E (SErr e) s'.

  Lemma Ebad_sEok M K s E : MI M K s -> Ebad E -> sEok E s.
  Proof.
    intros HM HE e s' Hx Hw Hf. apply HE.
    - rewrite (sx_core _ _ Hx). apply HM.
    - done.
    - eapply failing_suffix; [apply (mi_ora _ _ _ _ _ _ HM)|]. by eapply hit_failing.
  Qed.

  (** Reading a child that is not held yet takes hold of it. *)
  Lemma m_get_child M K s n nd i r cnd (Q : nid -> st -> Prop) (E : stop -> st -> Prop) :
    MI M K s -> K !! n = Some nd -> n_children nd !! i = Some r -> r ∈ RS -> r ∉ M -> cnode C r = Some cnd ->
    (forall c s', K !! c = None -> loc s' r c -> MI (r :: M) (<[c := cnd]> K) s' ->
       (forall r m, loc s r m -> loc s' r m) -> Q c s') ->
    Ebad E -> swp (get_child n i) Q E s.
  Proof.
    intros HM Hn Hi Hr Hm Hc HQ HE. eapply swp_get_child.
    - apply HM.
    - by eapply (mi_own _ _ _ _ _ _ HM).
    - exact Hi.
    - rewrite (mi_coh _ _ _ _ _ _ HM) by done. exact Hc.
    - rewrite (mi_core _ _ _ _ _ _ HM). unfold cnode in Hc. destruct (blk C (fst r)); [by eexists|done].
    - intros c s' Hx Hw Hh Hl. apply (MI_sext _ _ _ _ Hx) in HM.
      destruct (MI_claim _ _ _ _ _ _ HM Hm Hr Hl Hh) as [H1 H2]. apply HQ; try done.
      intros ? ?. by apply sext_loc.
    - by eapply Ebad_sEok.
  Qed.

  (** Reading a child that is held gives the held node. *)
  Lemma m_get_child_held M K s n nd i r c cnd (Q : nid -> st -> Prop) (E : stop -> st -> Prop) :
    MI M K s -> K !! n = Some nd -> n_children nd !! i = Some r -> loc s r c -> K !! c = Some cnd ->
    (forall s', MI M K s' -> (forall r m, loc s r m -> loc s' r m) -> Q c s') ->
    Ebad E -> swp (get_child n i) Q E s.
  Proof.
    intros HM Hn Hi Hl Hc HQ HE. destruct (mi_own _ _ _ _ _ _ HM c cnd Hc) as [Hh _].
    eapply swp_get_child.
    - apply HM.
    - by eapply (mi_own _ _ _ _ _ _ HM).
    - exact Hi.
    - rewrite (loc_hnode _ _ _ Hl). exact Hh.
    - destruct Hl as (e & He & _). destruct (proj1 (mi_wf _ _ _ _ _ _ HM) _ _ He) as (b & Hb & _). by exists b.
    - intros c' s' Hx Hw Hh' Hl'. assert (c' = c) as -> by (eapply loc_fun; [done|by eapply sext_loc]).
      apply HQ; [by eapply MI_sext|]. intros ? ?. by apply sext_loc.
    - by eapply Ebad_sEok.
  Qed.

  (** ** Ghost trees held partly in the heap *)
  Local Notation q := (length C).

  Definition isnew (u : tree) : Prop := fst (tref u) = q.
  Definition Rnew (K : gmap nid node) (nodes : list nid) (u : tree) : Prop :=
    exists n, nodes !! snd (tref u) = Some n /\ K !! n = Some (node_of u).
  Definition Rold (u : tree) : Prop :=
    cnode C (tref u) = Some (node_of u) /\ Forall (fun r => fst r < q)%nat (refs u).
  Definition Rt (K : gmap nid node) (nodes : list nid) (t : tree) : Prop :=
    forall u, u ∈ subs t -> (isnew u /\ Rnew K nodes u) \/ Rold u.

  Lemma Rt_mono K K' nodes nodes' t :
    nodes `prefix_of` nodes' -> (forall n, n ∈ nodes -> K' !! n = K !! n) -> Rt K nodes t -> Rt K' nodes' t.
  Proof.
    intros Hp HK Hr u Hu. destruct (Hr u Hu) as [(H1 & n & H2 & H3)|H]; [left|by right].
    split; [done|]. exists n. split; [by eapply prefix_lookup|].
    rewrite HK; [done|]. by eapply elem_of_list_lookup_2.
  Qed.
  Lemma Rt_kid K nodes t c : c ∈ tkids t -> Rt K nodes t -> Rt K nodes c.
  Proof. intros Hc Hr u Hu. apply Hr. by eapply subs_kid. Qed.
  Lemma Rt_intro K nodes t : (isnew t /\ Rnew K nodes t) \/ Rold t -> Forall (Rt K nodes) (tkids t) -> Rt K nodes t.
  Proof.
    intros Ht Hk u Hu. destruct t as [r ks cs]. apply elem_of_subs in Hu as [->|(c & Hc & Hu)]; [done|].
    rewrite Forall_forall in Hk. by apply (Hk c).
  Qed.

  Definition zR (K : gmap nid node) (nodes : list nid) (tp : zipper) : Prop :=
    Forall (fun x => Forall (Rt K nodes) (take (snd x) (tkids (fst x))) /\
                     Forall (Rt K nodes) (drop (S (snd x)) (tkids (fst x)))) tp.
  Lemma zR_mono K K' nodes nodes' tp :
    nodes `prefix_of` nodes' -> (forall n, n ∈ nodes -> K' !! n = K !! n) -> zR K nodes tp -> zR K' nodes' tp.
  Proof.
    intros Hp HK Hz. eapply Forall_impl; [exact Hz|]. intros [u i] [H1 H2]. split;
      (eapply Forall_impl; [done|]); intros c; by apply Rt_mono.
  Qed.

  (** The path is held. *)
  Definition pK (K : gmap nid node) (p : path) (tp : zipper) : Prop :=
    Forall2 (fun (x : nid * nat) (y : tree * nat) => snd x = snd y /\ K !! fst x = Some (node_of (fst y))) p tp.
  Lemma pK_mono K K' p tp : (forall n, n ∈ map fst p -> K' !! n = K !! n) -> pK K p tp -> pK K' p tp.
  Proof.
    intros HK H. induction H as [|x y p tp [H1 H2] Hp IH]; constructor.
    - split; [done|]. rewrite HK; [done|]. left.
    - apply IH. intros n Hn. apply HK. by right.
  Qed.

  Lemma NoDup_perm_app {A} (l l' : list A) : l ≡ₚ l' -> NoDup l -> NoDup l'.
  Proof. intros Hp H. by rewrite <-Hp. Qed.

  (** *** Propagation *)
  Lemma m_propagate p : forall tp t K M s ch T len' (Q : changes -> st -> Prop) (E : stop -> st -> Prop),
    MI M K s -> pK K p tp -> NoDup (map fst p ++ ch_nodes ch) -> ch_seq ch = q ->
    Rt K (ch_nodes ch) t -> zR K (ch_nodes ch) tp -> Forall (fun x => snd x < length (tkids (fst x)))%nat tp ->
    pprop q (length (ch_nodes ch)) tp t = (T, len') ->
    (forall K' s' ch', MI M K' s' -> NoDup (ch_nodes ch') -> len' = length (ch_nodes ch') ->
       ch_seq ch' = q -> ch_key ch' = ch_key ch -> ch_value ch' = ch_value ch ->
       Rt K' (ch_nodes ch') T -> Q ch' s') ->
    swp (propagate ch p (tref t)) Q E s.
  Proof.
    induction p as [|[n i] p IH]; intros tp t K M s ch T len' Q E HM Hp Hnd Hseq Ht Hz Hlen Hpp HQ.
    - inversion Hp; subst. cbn [pprop] in Hpp. injection Hpp as <- <-. cbn [propagate]. apply swp_ret. by eapply HQ.
    - inversion Hp as [|? [u j] ? tp' [Hi Hn] Hp']; subst. simpl in Hi, Hn. subst j.
      apply Forall_cons in Hlen as [Hi Hlen]. simpl in Hi.
      apply Forall_cons in Hz as [[Z1 Z2] Hz]. simpl in Z1, Z2.
      apply NoDup_cons in Hnd as [Hn1 Hnd]. simpl in Hn1.
      assert (n ∉ map fst p /\ n ∉ ch_nodes ch) as [Hnp Hnn] by (by rewrite elem_of_app in Hn1; tauto).
      cbn [pprop] in Hpp. cbn [propagate]. apply swp_bind.
      set (u' := Nd (q, length (ch_nodes ch)) (tkeys u) (<[i := t]> (tkids u))) in *.
      eapply (m_mod M K s n); [done|exact Hn| |].
      { unfold on_children. simpl. unfold vec_set. rewrite map_length.
        destruct (Nat.ltb_spec i (length (tkids u))) as [_|]; [|lia]. simpl. reflexivity. }
      intros s' HM' _. cbn [add_node]. 
      assert (forall n', n' <> n -> <[n := node_of u']> K !! n' = K !! n') as Hne.
      { intros n' Hne. by rewrite lookup_insert_ne. }
      assert (Node (tkeys u) (<[i := tref t]> (map tref (tkids u))) = node_of u') as Hu'.
      { unfold node_of. simpl. f_equal. by rewrite <-list_fmap_insert. }
      rewrite Hu' in HM'.
      assert (forall n', n' ∈ ch_nodes ch -> <[n := node_of u']> K !! n' = K !! n') as Hne1.
      { intros n' Hin. apply Hne. intros ->. done. }
      assert (forall c, Rt K (ch_nodes ch) c -> Rt (<[n := node_of u']> K) (ch_nodes ch ++ [n]) c) as HR.
      { intros c. apply Rt_mono; [by apply prefix_app_r|done]. }
      unfold add_node. rewrite Hseq.
      change (q, length (ch_nodes ch)) with (tref u').
      eapply (IH tp' u' _ M s' (Changes q (ch_key ch) (ch_value ch) (ch_nodes ch ++ [n]))).
      + exact HM'.
      + eapply pK_mono; [|exact Hp']. intros n' Hin. apply Hne. intros ->. done.
      + simpl. eapply NoDup_perm_app; [|apply NoDup_cons; split; [exact Hn1|exact Hnd]]. simpl. solve_Permutation.
      + done.
      + simpl. apply Rt_intro.
        * left. split; [done|]. exists n. split; [simpl; by rewrite lookup_app_r, Nat.sub_diag by lia|].
          by rewrite lookup_insert.
        * simpl. rewrite insert_kids by done. apply Forall_app. split; [|apply Forall_cons; split].
          -- eapply Forall_impl; [exact Z1|done].
          -- by apply HR.
          -- eapply Forall_impl; [exact Z2|done].
      + simpl. eapply zR_mono; [by apply prefix_app_r|exact Hne1|exact Hz].
      + done.
      + simpl. rewrite app_length, Nat.add_1_r. exact Hpp.
      + intros K' s'' ch' A1 A2 A3 A4 A5 A6 A7. eapply HQ; done.
  Qed.

  (** *** Insertion *)
  Definition okfr (x : tree * nat) : Prop := (snd x <= length (tkeys (fst x)) /\ snd x < length (tkids (fst x)))%nat.
  Definition okhd (m : bool) (cs : list tree) (x : tree * nat) : Prop :=
    (if m then snd x < length (tkeys (fst x)) else snd x <= length (tkeys (fst x)))%nat /\
    (cs = [] \/ snd x < length (tkids (fst x)))%nat.

  Lemma node_insert_eq m k cs u i : okhd m cs (u, i) ->
    node_insert k (map tref cs) i (if m then (i + 1)%nat else i) (node_of u) =
    Some (tt, node_of (Nd (tref u) (ins_keys m i k (tkeys u)) (ins_kids i cs (tkids u)))).
  Proof.
    intros [H1 H2]. simpl in *. unfold node_insert, children_insert, vec_splice, node_of, ins_keys, ins_kids. simpl.
    rewrite map_length.
    assert ((i <=? (if m then i + 1 else i))%nat && ((if m then i + 1 else i) <=? length (tkeys u))%nat = true) as ->.
    { apply andb_true_iff. rewrite !Nat.leb_le. destruct m; lia. }
    assert (drop (if m then (i + 1)%nat else i) (tkeys u) = drop (if m then S i else i) (tkeys u)) as ->.
    { destruct m; [by rewrite Nat.add_1_r|done]. }
    destruct cs as [|c cs]; [done|]. destruct H2 as [|H2]; [done|]. simpl.
    assert ((i <=? i + 1)%nat && (i + 1 <=? length (tkids u))%nat = true) as ->.
    { apply andb_true_iff. rewrite !Nat.leb_le. lia. }
    do 3 f_equal. rewrite map_app. simpl. rewrite map_app, firstn_map, skipn_map. by rewrite Nat.add_1_r.
  Qed.

  Record Done (M : list ref) (key : bytes) (value : option bytes) (T : tree) (len : nat) (s : st) (ch : changes)
      (K : gmap nid node) : Prop := {
    dn_mi : MI M K s;
    dn_nodup : NoDup (ch_nodes ch);
    dn_len : len = length (ch_nodes ch);
    dn_seq : ch_seq ch = q;
    dn_key : ch_key ch = key;
    dn_value : ch_value ch = value;
    dn_R : Rt K (ch_nodes ch) T }.

  Lemma NoDup_fresh {A} (l : list A) x : NoDup l -> x ∉ l -> NoDup (l ++ [x]).
  Proof.
    intros H1 H2. apply NoDup_app. split_and!; [done| |apply NoDup_singleton].
    intros y Hy Hx. apply elem_of_list_singleton in Hx. by subst.
  Qed.

  Lemma pK_dom K p tp n : pK K p tp -> n ∈ map fst p -> is_Some (K !! n).
  Proof.
    induction 1 as [|x y p tp [H1 H2] Hp IH]; simpl; [by intros ?%elem_of_nil|].
    intros [->|Hn]%elem_of_cons; [by eexists|by apply IH].
  Qed.

  Lemma m_put_loop p : forall m k cs tp K M s ch T len' (Q : put_result -> st -> Prop) (E : stop -> st -> Prop),
    MI M K s -> pK K p tp -> NoDup (map fst p ++ ch_nodes ch) -> ch_seq ch = q ->
    Forall (fun n => is_Some (K !! n)) (ch_nodes ch) ->
    Forall (Rt K (ch_nodes ch)) cs ->
    match tp with
    | [] => True
    | (u, i) :: tp' => okhd m cs (u, i) /\ Forall (Rt K (ch_nodes ch)) (ins_kids i cs (tkids u)) /\
        zR K (ch_nodes ch) tp' /\ Forall okfr tp'
    end ->
    pput q (length (ch_nodes ch)) m k cs tp = (T, len') ->
    (forall K' s' ch', Done M (ch_key ch) (ch_value ch) T len' s' ch' K' -> Q (PutReady ch') s') ->
    (forall K' s' ch' k' cs', MI M K' s' -> NoDup (ch_nodes ch') -> ch_seq ch' = q ->
       ch_key ch' = ch_key ch -> ch_value ch' = ch_value ch -> Forall (fun n => is_Some (K' !! n)) (ch_nodes ch') ->
       Forall (Rt K' (ch_nodes ch')) cs' ->
       T = Nd (q, length (ch_nodes ch')) [k'] cs' -> len' = S (length (ch_nodes ch')) ->
       Q (PutNewRoot k' (map tref cs') ch') s') ->
    swp (put_loop m k (map tref cs) p ch) Q E s.
  Proof.
    induction p as [|[n i] p IH]; intros m k cs tp K M s ch T len' Q E HM Hp Hnd Hseq Hdom Hcs Htp Hpp HQ1 HQ2.
    - inversion Hp; subst. cbn [pput] in Hpp. injection Hpp as <- <-. cbn [put_loop]. apply swp_ret.
      by eapply HQ2.
    - inversion Hp as [|? [u j] ? tp' [Hi Hn] Hp']; subst. simpl in Hi, Hn. subst j.
      destruct Htp as (Hhd & Hkids & Hz & Hfr).
      pose proof Hnd as Hnd0. apply NoDup_cons in Hnd as [Hn1 Hnd]. simpl in Hn1.
      assert (n ∉ map fst p /\ n ∉ ch_nodes ch) as [Hnp Hnn] by (by rewrite elem_of_app in Hn1; tauto).
      set (ks := ins_keys m i k (tkeys u)) in *. set (kids := ins_kids i cs (tkids u)) in *.
      cbn [put_loop]. apply swp_bind. eapply m_num_keys; [exact HM|exact Hn|]. cbn [node_of n_keys].
      cbn [pput] in Hpp. fold ks kids in Hpp. change MAX_KEYS with 8.
      destruct (m || (length (tkeys u) <? 8)%nat) eqn:Em.
      + apply swp_bind. eapply (m_mod M K s n); [exact HM|exact Hn|by apply node_insert_eq|].
        intros s1 HM1 _. fold ks kids in HM1. unfold add_node. rewrite Hseq.
        set (u' := Nd (q, length (ch_nodes ch)) ks kids) in *.
        change (node_of (Nd (tref u) ks kids)) with (node_of u') in HM1.
        assert (forall n', n' <> n -> <[n := node_of u']> K !! n' = K !! n') as Hne.
        { intros n' Hne. by rewrite lookup_insert_ne. }
        assert (forall n', n' ∈ ch_nodes ch -> <[n := node_of u']> K !! n' = K !! n') as Hne1.
        { intros n' Hin. apply Hne. intros ->. done. }
        apply swp_bind. change (q, length (ch_nodes ch)) with (tref u').
        eapply (m_propagate p tp' u' _ M s1 (Changes q (ch_key ch) (ch_value ch) (ch_nodes ch ++ [n]))).
        * exact HM1.
        * eapply pK_mono; [|exact Hp']. intros n' Hin. apply Hne. intros ->. done.
        * simpl. eapply NoDup_perm_app; [|exact Hnd0]. simpl. solve_Permutation.
        * done.
        * simpl. apply Rt_intro.
          -- left. split; [done|]. exists n. split; [simpl; by rewrite lookup_app_r, Nat.sub_diag by lia|].
             by rewrite lookup_insert.
          -- simpl. eapply Forall_impl; [exact Hkids|]. intros c. apply Rt_mono; [by apply prefix_app_r|done].
        * simpl. eapply zR_mono; [by apply prefix_app_r|exact Hne1|exact Hz].
        * eapply Forall_impl; [exact Hfr|]. intros x Hx. apply Hx.
        * simpl. rewrite app_length, Nat.add_1_r. exact Hpp.
        * intros K' s' ch' A1 A2 A3 A4 A5 A6 A7. apply swp_ret. eapply HQ1. by split.
      + destruct m; [done|].
        apply swp_bind. eapply (m_mod M K s n); [exact HM|exact Hn|by apply (node_insert_eq false)|].
        intros s1 HM1 _. fold ks kids in HM1.
        destruct (drop (Nat.div2 (length ks)) ks) as [|mid rk] eqn:Ed.
        { exfalso. assert (length (drop (Nat.div2 (length ks)) ks) = 0) as E0 by (by rewrite Ed).
          rewrite drop_length in E0. assert (0 < length ks)%nat as Hpos.
          { unfold ks, ins_keys. rewrite app_length. simpl. lia. }
          pose proof (Nat.lt_div2 (length ks) Hpos). lia. }
        set (km := Nat.div2 (length ks)) in *. set (cm := Nat.div2 (length kids)) in *.
        apply swp_bind. eapply (m_mod M _ s1 n); [exact HM1|by rewrite lookup_insert| |].
        { unfold split_node. cbn [node_of n_keys n_children tkeys tkids]. rewrite map_length. fold km cm. rewrite Ed. reflexivity. }
        intros s2 HM2 _. rewrite insert_insert in HM2.
        set (l := Nd (q, length (ch_nodes ch)) (take km ks) (take cm kids)) in *.
        set (r := Nd (q, S (length (ch_nodes ch))) rk (drop cm kids)) in *.
        replace (Node (take km ks) (take cm (map tref kids))) with (node_of l) by (unfold node_of; simpl; by rewrite firstn_map).
        replace (Node rk (drop cm (map tref kids))) with (node_of r) by (unfold node_of; simpl; by rewrite skipn_map).
        apply swp_bind. eapply m_new; [exact HM2|]. intros ln s3 Hln HM3 _.
        apply swp_bind. eapply m_new; [exact HM3|]. intros rn s4 Hrn HM4 _.
        unfold add_node. cbn [ch_nodes ch_seq ch_key ch_value]. rewrite Hseq.
        set (K4 := <[rn := node_of r]> (<[ln := node_of l]> (<[n := Node [] []]> K))) in *.
        assert (rn <> ln) as Hrl. { intros ->. by rewrite lookup_insert in Hrn. }
        assert (ln <> n) as Hln'. { intros ->. by rewrite lookup_insert in Hln. }
        rewrite lookup_insert_ne in Hln by done. rewrite lookup_insert_ne in Hrn by done.
        assert (rn <> n) as Hrn'. { intros ->. by rewrite lookup_insert in Hrn. }
        rewrite lookup_insert_ne in Hrn by done.
        assert (forall n', n' <> n -> is_Some (K !! n') -> K4 !! n' = K !! n') as Hne.
        { intros n' Hn' Hs. unfold K4. rewrite !lookup_insert_ne; try done.
          - intros ->. by rewrite Hln in Hs; destruct Hs.
          - intros ->. by rewrite Hrn in Hs; destruct Hs. }
        assert (forall n', n' ∈ ch_nodes ch -> K4 !! n' = K !! n') as Hne1.
        { intros n' Hin. apply Hne; [by intros ->|]. rewrite Forall_forall in Hdom. by apply Hdom. }
        assert (K !! rn = None -> rn ∉ map fst p ++ ch_nodes ch) as Hrf.
        { intros Hx. rewrite elem_of_app. intros [Hin|Hin].
          - destruct (pK_dom _ _ _ _ Hp' Hin). congruence.
          - rewrite Forall_forall in Hdom. destruct (Hdom _ Hin). congruence. }
        assert (K !! ln = None -> ln ∉ map fst p ++ ch_nodes ch) as Hlf.
        { intros Hx. rewrite elem_of_app. intros [Hin|Hin].
          - destruct (pK_dom _ _ _ _ Hp' Hin). congruence.
          - rewrite Forall_forall in Hdom. destruct (Hdom _ Hin). congruence. }
        assert (forall c, Rt K (ch_nodes ch) c -> Rt K4 ((ch_nodes ch ++ [ln]) ++ [rn]) c) as HR.
        { intros c. apply Rt_mono; [rewrite <-app_assoc; by apply prefix_app_r|done]. }
        rewrite app_length. cbn [length]. rewrite Nat.add_1_r.
        change (put_loop false mid [(q, length (ch_nodes ch)); (q, S (length (ch_nodes ch)))] p) with
          (put_loop false mid (map tref [l; r]) p).
        assert (Forall (Rt K4 ((ch_nodes ch ++ [ln]) ++ [rn])) [l; r]) as Hlr.
        { apply Forall_cons. split; [|apply Forall_cons; split; [|done]].
          - apply Rt_intro.
            + left. split; [done|]. exists ln. simpl. split.
              * apply lookup_app_l_Some. by rewrite lookup_app_r, Nat.sub_diag by lia.
              * unfold K4. rewrite lookup_insert_ne by done. by rewrite lookup_insert.
            + simpl. apply Forall_take. eapply Forall_impl; [exact Hkids|done].
          - apply Rt_intro.
            + left. split; [done|]. exists rn. simpl. split.
              * rewrite lookup_app_r by (rewrite app_length; simpl; lia).
                rewrite app_length. simpl. by rewrite Nat.add_1_r, Nat.sub_diag.
              * unfold K4. by rewrite lookup_insert.
            + simpl. apply Forall_drop. eapply Forall_impl; [exact Hkids|done]. }
        eapply (IH false mid [l; r] tp' K4 M s4 (Changes q (ch_key ch) (ch_value ch) ((ch_nodes ch ++ [ln]) ++ [rn]))).
        * exact HM4.
        * eapply pK_mono; [|exact Hp']. intros n' Hin. apply Hne; [by intros ->|by eapply pK_dom].
        * simpl. rewrite app_assoc. apply NoDup_fresh.
          -- rewrite app_assoc. apply NoDup_fresh; [done|by apply Hlf].
          -- rewrite app_assoc, elem_of_app, elem_of_list_singleton. intros [Hin|Hin]; [|done]. by apply Hrf in Hin.
        * done.
        * simpl. apply Forall_app. split; [apply Forall_app; split|].
          -- apply Forall_forall. intros n' Hin. rewrite (Hne1 _ Hin). rewrite Forall_forall in Hdom. by apply Hdom.
          -- apply Forall_singleton. unfold K4. rewrite lookup_insert_ne, lookup_insert by done. by eexists.
          -- apply Forall_singleton. unfold K4. rewrite lookup_insert. by eexists.
        * exact Hlr.
        * destruct tp' as [|[v j] tp'']; [done|]. apply Forall_cons in Hfr as [[F1 F2] Hfr]. simpl in F1, F2.
          apply Forall_cons in Hz as [[Z1 Z2] Hz]. simpl in Z1, Z2.
          split_and!.
          -- split; [done|by right].
          -- unfold ins_kids. apply Forall_app. split; [eapply Forall_impl; [exact Z1|done]|].
             apply Forall_app. split; [done|]. eapply Forall_impl; [exact Z2|done].
          -- eapply zR_mono; [|exact Hne1|exact Hz]. simpl. rewrite <-app_assoc. by apply prefix_app_r.
          -- done.
        * simpl. rewrite !app_length. cbn [length]. rewrite !Nat.add_1_r. exact Hpp.
        * exact HQ1.
        * exact HQ2.
  Qed.
End mut.
