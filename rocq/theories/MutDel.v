(** Deletion in place simulates the ghost deletion of Pure.v. *)
From Coq.Strings Require Import Byte.
From Coq Require Import Lia Sorting.Sorted.
From stdpp Require Import prelude gmap.
From Verif Require Import Bytes Codec Model Order Wp Store Tree Iter Read Zip Pure Seq Mut Guard.

Local Arguments decode_block : simpl never.
Local Arguments blocks_get : simpl never.

Definition vop (sd : side) {A} (l : list A) : option (A * list A) :=
  match sd with SLeft => vec_pop l | SRight => vec_remove 0 l end.

Lemma vop_map {A B} sd (f : A -> B) l x l' : vop sd l = Some (x, l') -> vop sd (map f l) = Some (f x, map f l').
Proof.
  destruct sd; simpl; unfold vec_pop, vec_remove.
  - rewrite map_length. intros H. destruct (last l) as [y|] eqn:E; [|done]. injection H as -> <-.
    change (map f l) with (f <$> l) at 1. rewrite fmap_last, E. simpl. by rewrite firstn_map.
  - destruct l as [|y l]; simpl; [done|]. intros [= -> <-]. by rewrite drop_0.
Qed.
Lemma vop_nil {A} sd : vop sd (@nil A) = None.
Proof. by destruct sd. Qed.
Lemma vop_cons {A} sd (x : A) l : is_Some (vop sd (x :: l)).
Proof.
  destruct sd; simpl; unfold vec_pop, vec_remove; simpl; [|by eexists].
  destruct (last (x :: l)) eqn:E; [by eexists|]. by apply last_None in E.
Qed.

Lemma tref_in t l : t ∈ l -> tref t ∈ concat (map refs l).
Proof.
  induction 1 as [t l|t t' l _ IH]; simpl; rewrite elem_of_app; [left|by right].
  destruct t. left.
Qed.

Section mut.
  Context (C : list bytes) (RS : list ref) (o : list fault).
  Local Notation MI := (MI C RS o).
  Local Notation q := (length C).
  Local Notation Ebad := (Ebad C o).
  Local Notation Rt := (Rt C).
  Local Notation Rold := (Rold C).
  Local Notation zR := (zR C).

  (** Reading without taking hold. *)
  Lemma m_read M K s n nd i r cnd (Q : nid -> st -> Prop) (E : stop -> st -> Prop) :
    MI M K s -> K !! n = Some nd -> n_children nd !! i = Some r -> r ∈ RS -> r ∉ M -> cnode C r = Some cnd ->
    (forall c s', MI M K s' -> loc s' r c -> heap s' !! c = Some cnd -> sext s s' -> Q c s') ->
    Ebad E -> swp (get_child n i) Q E s.
  Proof.
    intros HM Hn Hi Hr Hm Hc HQ HE. eapply swp_get_child.
    - apply HM.
    - by eapply (mi_own _ _ _ _ _ _ HM).
    - exact Hi.
    - rewrite (mi_coh _ _ _ _ _ _ HM) by done. exact Hc.
    - rewrite (mi_core _ _ _ _ _ _ HM). unfold cnode in Hc. destruct (blk C (fst r)); [by eexists|done].
    - intros c s' Hx Hw Hh Hl. apply (MI_sext _ _ _ _ _ _ _ Hx) in HM. by apply HQ.
    - by eapply Ebad_sEok.
  Qed.

  Definition donor (sd : side) (f : tree) (i : nat) : option (nat * tree * nat) :=
    match sd with
    | SLeft => donor_l f i
    | SRight => match donor_r f i with Some (dn, fk) => Some (S i, dn, fk) | None => None end
    end.

  Lemma donor_facts sd f i j dn fk : donor sd f i = Some (j, dn, fk) ->
    tkids f !! j = Some dn /\ tkeys f !! get_key_index sd i = Some fk /\ j <> i /\
    (dn ∈ take i (tkids f) \/ dn ∈ drop (S i) (tkids f)) /\
    match sd with SLeft => i = S j | SRight => j = S i end.
  Proof.
    destruct sd; unfold donor, donor_l, donor_r, get_key_index.
    - destruct i as [|i]; [done|]. destruct (tkids f !! i) eqn:E1; [|done]. destruct (tkeys f !! i) eqn:E2; [|done].
      intros [= <- <- <-]. replace (S i - 1)%nat with i by lia. split_and!; try done; try lia.
      left. apply elem_of_list_lookup_2 with i. by rewrite lookup_take by lia.
    - destruct (tkids f !! S i) eqn:E1; [|done]. destruct (tkeys f !! i) eqn:E2; [|done].
      intros [= <- <- <-]. split_and!; try done; try lia. right. apply elem_of_list_lookup_2 with 0.
      by rewrite lookup_drop, Nat.add_0_r.
  Qed.

  Lemma m_donor_index sd f i n M K s (Q : option nat -> st -> Prop) (E : stop -> st -> Prop) :
    MI M K s -> K !! n = Some (node_of f) -> length (tkids f) = S (length (tkeys f)) -> (i <= length (tkeys f))%nat ->
    Q ((fun x => fst (fst x)) <$> donor sd f i) s ->
    swp (get_donor_index sd n i) Q E s.
  Proof.
    intros HM Hn Hl Hi HQ. destruct sd; unfold get_donor_index.
    - apply swp_ret. unfold donor, donor_l in HQ. destruct i as [|i]; [done|]. simpl.
      destruct (lookup_lt_is_Some_2 (tkids f) i ltac:(lia)) as [dn E1].
      destruct (lookup_lt_is_Some_2 (tkeys f) i ltac:(lia)) as [fk E2].
      rewrite E1, E2 in HQ. simpl in HQ. by rewrite Nat.sub_0_r.
    - apply swp_bind. eapply m_num_children; [exact HM|exact Hn|]. apply swp_ret.
      cbn [node_of n_children]. rewrite map_length. unfold donor, donor_r in HQ.
      destruct (Nat.leb_spec (length (tkids f)) (i + 1)) as [H|H].
      + rewrite (lookup_ge_None_2 (tkids f) (S i)) in HQ by lia. done.
      + destruct (lookup_lt_is_Some_2 (tkids f) (S i) ltac:(lia)) as [dn E1].
        destruct (lookup_lt_is_Some_2 (tkeys f) i ltac:(lia)) as [fk E2].
        rewrite E1, E2 in HQ. simpl in HQ. by rewrite Nat.add_1_r.
  Qed.

  (** The trees beside the path are untouched. *)
  Definition told (t : tree) : Prop := forall u, u ∈ subs t -> Rold u.
  Lemma told_Rt K nodes t : told t -> Rt K nodes t.
  Proof. intros H u Hu. right. by apply H. Qed.
  Lemma told_kid t c : c ∈ tkids t -> told t -> told c.
  Proof. intros Hc H u Hu. apply H. by eapply subs_kid. Qed.
  Definition fold_ (x : tree * nat) : Prop :=
    Forall told (take (snd x) (tkids (fst x))) /\ Forall told (drop (S (snd x)) (tkids (fst x))).
  Definition zold (tp : zipper) : Prop := Forall fold_ tp.
  Lemma zold_zR K nodes tp : zold tp -> zR K nodes tp.
  Proof.
    intros H. eapply Forall_impl; [exact H|]. intros [u i] [H1 H2].
    split; (eapply Forall_impl; [done|]); intros; by apply told_Rt.
  Qed.

  Lemma m_can_rotate sd f i n M K s (Q : option (nat * nid) -> st -> Prop) (E : stop -> st -> Prop) :
    MI M K s -> K !! n = Some (node_of f) -> length (tkids f) = S (length (tkeys f)) -> (i <= length (tkeys f))%nat ->
    fold_ (f, i) -> (forall r, r ∈ sibs [(f, i)] -> r ∈ RS /\ r ∉ M) ->
    (forall s', MI M K s' -> (forall j dn fk, donor sd f i = Some (j, dn, fk) -> (length (tkeys dn) <= 4)%nat) -> Q None s') ->
    (forall j dn fk c s', donor sd f i = Some (j, dn, fk) -> (4 < length (tkeys dn))%nat -> MI M K s' ->
       loc s' (tref dn) c -> heap s' !! c = Some (node_of dn) -> Q (Some (j, c)) s') ->
    Ebad E -> swp (can_rotate sd n i MAX_KEYS) Q E s.
  Proof.
    intros HM Hn Hl Hi Hf Hs HQ1 HQ2 HE. unfold can_rotate. apply swp_bind.
    eapply m_donor_index; [exact HM|exact Hn|done|done|].
    destruct (donor sd f i) as [[[j dn] fk]|] eqn:Ed; cbn [fmap option_fmap option_map fst snd].
    - destruct (donor_facts _ _ _ _ _ _ Ed) as (D1 & D2 & D3 & D4 & D5). apply swp_bind.
      assert (told dn) as Hold. { destruct Hf as [F1 F2]. rewrite Forall_forall in F1, F2. destruct D4; auto. }
      assert (tref dn ∈ sibs [(f, i)]) as Hin.
      { simpl. rewrite app_nil_r. rewrite elem_of_app. destruct D4 as [D4|D4]; [left|right]; by apply tref_in. }
      destruct (Hs _ Hin) as [Hs1 Hs2].
      eapply m_read; [exact HM|exact Hn| |exact Hs1|exact Hs2|apply Hold, subs_self| |exact HE].
      { cbn [node_of n_children]. change (map tref (tkids f)) with (tref <$> tkids f). by rewrite list_lookup_fmap, D1. }
      intros c s1 HM1 Hloc Hh _. apply swp_bind. eapply swp_num_keys; [exact Hh|]. apply swp_ret.
      cbn [node_of n_keys]. change (min_keys MAX_KEYS) with 4.
      destruct (Nat.ltb_spec 4 (length (tkeys dn))); [by eapply HQ2|]. apply HQ1; [done|]. by intros ??? [= <- <- <-].
    - apply swp_ret. apply HQ1; [done|]. done.
  Qed.

  (** Everything needed to repair below the father [f]. *)
  Record Pre (f : nid) (ft : tree) (i : nat) (dc : nid) (dct : tree) (M : list ref) (K : gmap nid node) (ch : changes) (s : st)
      : Prop := {
    pr_mi : MI M K s;
    pr_f : K !! f = Some (node_of ft);
    pr_dc : K !! dc = Some (node_of dct);
    pr_ne : f <> dc;
    pr_fn : f ∉ ch_nodes ch;
    pr_dn : dc ∉ ch_nodes ch;
    pr_nd : NoDup (ch_nodes ch);
    pr_dom : Forall (fun n => is_Some (K !! n)) (ch_nodes ch);
    pr_seq : ch_seq ch = q;
    pr_len : length (tkids ft) = S (length (tkeys ft));
    pr_i : (i <= length (tkeys ft))%nat;
    pr_old : fold_ (ft, i);
    pr_sibs : forall r, r ∈ sibs [(ft, i)] -> r ∈ RS /\ r ∉ M;
    pr_kids : Forall (Rt K (ch_nodes ch)) (tkids dct) }.

  Record Post (f : nid) (dc : nid) (M : list ref) (K : gmap nid node) (ch : changes) (f' : tree) (len' : nat) (d : ref)
      (K' : gmap nid node) (ch' : changes) (s' : st) : Prop := {
    po_mi : MI (d :: M) K' s';
    po_f : K' !! f = Some (node_of f');
    po_fn : f ∉ ch_nodes ch';
    po_nd : NoDup (ch_nodes ch');
    po_pre : ch_nodes ch `prefix_of` ch_nodes ch';
    po_in : forall n, n ∈ ch_nodes ch' -> n ∈ ch_nodes ch \/ n = dc \/ K !! n = None;
    po_K : forall n, n <> f -> n <> dc -> is_Some (K !! n) -> K' !! n = K !! n;
    po_dom : Forall (fun n => is_Some (K' !! n)) (ch_nodes ch');
    po_len : len' = length (ch_nodes ch');
    po_seq : ch_seq ch' = q;
    po_key : ch_key ch' = ch_key ch;
    po_val : ch_value ch' = ch_value ch;
    po_kids : Forall (Rt K' (ch_nodes ch')) (tkids f') }.

  Definition rotated (sd : side) (len : nat) (f : tree) (i : nat) (dc : tree) (j : nat) (fk dk : nat)
      (dks : list nat) (oc : option tree) (dcs : list tree) : tree :=
    let dn' := Nd (q, len) dks dcs in
    let dc' := match sd with
               | SLeft => Nd (q, S len) (fk :: tkeys dc) (olist oc ++ tkids dc)
               | SRight => Nd (q, S len) (tkeys dc ++ [fk]) (tkids dc ++ olist oc)
               end in
    Nd (tref f) (<[get_key_index sd i := dk]> (tkeys f)) (<[i := dc']> (<[j := dn']> (tkids f))).

  Lemma m_rotate sd f ft i dc dct M K ch s j dn fk c dk dks oc dcs (Q : changes -> st -> Prop) (E : stop -> st -> Prop) :
    Pre f ft i dc dct M K ch s -> donor sd ft i = Some (j, dn, fk) ->
    loc s (tref dn) c -> heap s !! c = Some (node_of dn) ->
    vop sd (tkeys dn) = Some (dk, dks) ->
    (tkids dn = [] /\ oc = None /\ dcs = [] \/ exists x, oc = Some x /\ vop sd (tkids dn) = Some (x, dcs)) ->
    (forall K' s' ch', Post f dc M K ch (rotated sd (length (ch_nodes ch)) ft i dct j fk dk dks oc dcs)
       (S (S (length (ch_nodes ch)))) (tref dn) K' ch' s' -> Q ch' s') ->
    swp (rotate sd f i dc j c ch) Q E s.
  Proof.
    intros [HM Hf Hdc Hne Hfn Hdn Hnd Hdom Hseq Hlen Hi Hold Hsibs Hkids] Hd Hloc Hh Hk Hc HQ.
    destruct (donor_facts _ _ _ _ _ _ Hd) as (D1 & D2 & D3 & D4 & D5).
    assert (told dn) as Hdold. { destruct Hold as [F1 F2]. rewrite Forall_forall in F1, F2. destruct D4; auto. }
    assert (tref dn ∈ sibs [(ft, i)]) as Hin.
    { simpl. rewrite app_nil_r. rewrite elem_of_app. destruct D4 as [D4|D4]; [left|right]; by apply tref_in. }
    destruct (Hsibs _ Hin) as [Hs1 Hs2].
    destruct (MI_claim _ _ _ _ _ _ _ _ _ HM Hs2 Hs1 Hloc Hh) as [Hc0 HM1].
    assert (c <> f) as Hcf by congruence. assert (c <> dc) as Hcd by congruence.
    assert (c ∉ ch_nodes ch) as Hcn.
    { intros Hx. rewrite Forall_forall in Hdom. destruct (Hdom _ Hx). congruence. }
    set (len := length (ch_nodes ch)) in *.
    set (dn' := Nd (q, len) dks dcs). 
    set (dc' := match sd with
               | SLeft => Nd (q, S len) (fk :: tkeys dct) (olist oc ++ tkids dct)
               | SRight => Nd (q, S len) (tkeys dct ++ [fk]) (tkids dct ++ olist oc)
               end).
    set (f' := rotated sd len ft i dct j fk dk dks oc dcs) in *.
    set (K' := <[f := node_of f']> (<[dc := node_of dc']> (<[c := node_of dn']> K))).
    assert (forall s', MI (tref dn :: M) K' s' ->
      Q (Changes q (ch_key ch) (ch_value ch) (ch_nodes ch ++ [c; dc])) s') as HQ'.
    { intros s' HM'. apply (HQ K').
      assert (forall n, n ∈ ch_nodes ch -> K' !! n = K !! n) as Heq.
      { intros n Hn. unfold K'. rewrite !lookup_insert_ne; [done|..]; by intros ->. }
      assert (forall t, Rt K (ch_nodes ch) t -> Rt K' (ch_nodes ch ++ [c; dc]) t) as HR.
      { intros t. apply Rt_mono; [by apply prefix_app_r|done]. }
      assert (forall t, t ∈ tkids dn -> Rt K' (ch_nodes ch ++ [c; dc]) t) as HRd.
      { intros t Ht. apply told_Rt. by eapply told_kid. }
      assert (forall t, t ∈ dcs \/ oc = Some t -> t ∈ tkids dn) as Hsub.
      { intros t. destruct Hc as [(-> & -> & ->)|(x & -> & Hv)].
        - intros [?%elem_of_nil|?]; done.
        - destruct sd; simpl in Hv; unfold vec_pop, vec_remove in Hv.
          + destruct (last (tkids dn)) as [y|] eqn:El; [|done]. injection Hv as -> <-.
            apply last_Some in El as [l' ->]. rewrite app_length. simpl.
            replace (length l' + 1 - 1)%nat with (length l') by lia. rewrite take_app.
            rewrite elem_of_app, elem_of_list_singleton. intros [?|[= ->]]; auto.
          + destruct (tkids dn) as [|y l] eqn:El; [done|]. simpl in Hv. injection Hv as -> <-. rewrite drop_0.
            rewrite elem_of_cons. intros [?|[= ->]]; auto. }
      assert (Rt K' (ch_nodes ch ++ [c; dc]) dn') as HRdn.
      { apply Rt_intro.
        - left. split; [done|]. exists c. simpl. split; [by rewrite lookup_app_r, Nat.sub_diag by done|].
          unfold K'. by rewrite !lookup_insert_ne, lookup_insert by done.
        - simpl. apply Forall_forall. intros t Ht. apply HRd, Hsub. by left. }
      assert (Rt K' (ch_nodes ch ++ [c; dc]) dc') as HRdc.
      { apply Rt_intro.
        - left. assert (tref dc' = (q, S len)) as Er by (unfold dc'; by destruct sd). unfold isnew, Rnew. rewrite Er.
          split; [done|]. exists dc. simpl. split.
          + rewrite lookup_app_r by (fold len; lia). fold len. by replace (S len - len)%nat with 1 by lia.
          + unfold K'. by rewrite lookup_insert_ne, lookup_insert by done.
        - assert (Forall (Rt K' (ch_nodes ch ++ [c; dc])) (olist oc)) as HRo.
          { destruct oc as [x|]; simpl; [|done]. apply Forall_singleton. apply HRd, Hsub. by right. }
          assert (Forall (Rt K' (ch_nodes ch ++ [c; dc])) (tkids dct)) as HRk by (eapply Forall_impl; eauto).
          unfold dc'. destruct sd; simpl; by apply Forall_app. }
      split; cbn [ch_nodes ch_key ch_value ch_seq].
      - done.
      - unfold K'. by rewrite lookup_insert.
      - rewrite elem_of_app, !elem_of_cons, elem_of_nil. naive_solver.
      - apply NoDup_app. split_and!; [done| |].
        + intros x Hx. rewrite !elem_of_cons, elem_of_nil. naive_solver.
        + apply NoDup_cons. split; [by rewrite elem_of_list_singleton|apply NoDup_singleton].
      - by apply prefix_app_r.
      - intros n. rewrite elem_of_app, !elem_of_cons, elem_of_nil. intros [?|[->|[->|[]]]]; auto.
      - intros n H1 H2 H3. unfold K'. rewrite !lookup_insert_ne; try done. intros <-. rewrite Hc0 in H3. by destruct H3.
      - apply Forall_app. split.
        + apply Forall_forall. intros n Hn. rewrite Heq by done. rewrite Forall_forall in Hdom. by apply Hdom.
        + apply Forall_cons. split; [|apply Forall_singleton].
          * unfold K'. rewrite !lookup_insert_ne, lookup_insert by done. by eexists.
          * unfold K'. rewrite lookup_insert_ne, lookup_insert by done. by eexists.
      - rewrite app_length. simpl. fold len. lia.
      - done.
      - done.
      - done.
      - unfold f', rotated. cbn [tkids]. fold dn' dc'. apply Forall_forall. intros t Ht.
        apply elem_of_list_lookup in Ht as [k Hk'].
        destruct (decide (i = k)) as [<-|Hki].
        { rewrite list_lookup_insert in Hk' by (rewrite insert_length; lia). injection Hk' as <-. done. }
        rewrite list_lookup_insert_ne in Hk' by done.
        destruct (decide (j = k)) as [<-|Hkj].
        { apply lookup_lt_Some in D1. rewrite list_lookup_insert in Hk' by lia. injection Hk' as <-. done. }
        rewrite list_lookup_insert_ne in Hk' by done.
        apply told_Rt. destruct Hold as [F1 F2]. simpl in F1, F2. destruct (decide (k < i)%nat).
        + apply (Forall_lookup_1 _ _ k t F1). by rewrite lookup_take by lia.
        + apply (Forall_lookup_1 _ _ (k - S i)%nat t F2). rewrite lookup_drop. by replace (S i + (k - S i))%nat with k by lia. }
    clear HQ. unfold rotate. apply swp_bind.
    (* the donor's key *)
    assert (forall (Q' : nat -> st -> Prop) (E' : stop -> st -> Prop) s', MI (tref dn :: M) (<[c := node_of dn]> K) s' ->
      (forall s'', MI (tref dn :: M) (<[c := Node dks (map tref (tkids dn))]> K) s'' -> Q' dk s'') ->
      swp (get_donor_key sd c) Q' E' s') as R1.
    { intros Q' E' s' HM' HQ1.
      assert (swp (node_mod c (on_keys (vop sd))) Q' E' s').
      { eapply (m_mod _ _ _ _ _ s' c); [exact HM'|by rewrite lookup_insert| |].
        - unfold on_keys. cbn [node_of n_keys]. by rewrite Hk.
        - intros s'' HM'' _. rewrite insert_insert in HM''. by apply HQ1. }
      by destruct sd. }
    apply R1; [exact HM1|]. clear R1. intros s1 HM2. apply swp_bind.
    assert (forall (Q' : option ref -> st -> Prop) (E' : stop -> st -> Prop) s', MI (tref dn :: M) (<[c := Node dks (map tref (tkids dn))]> K) s' ->
      (forall s'', MI (tref dn :: M) (<[c := node_of dn']> K) s'' -> Q' (tref <$> oc) s'') ->
      swp (get_donor_child sd c) Q' E' s') as R2.
    { intros Q' E' s' HM' HQ1. unfold get_donor_child. apply swp_bind.
      eapply m_is_leaf; [exact HM'|by rewrite lookup_insert|]. cbn [n_children]. rewrite map_length.
      destruct Hc as [(E1 & -> & Hdcs)|(x & -> & Hv)].
      - rewrite E1. cbn [length Nat.eqb]. apply swp_ret. apply HQ1. unfold dn', node_of. cbn [tkeys tkids].
        rewrite E1 in HM'. by rewrite Hdcs.
      - destruct (Nat.eqb_spec (length (tkids dn)) 0) as [E0|_].
        { apply nil_length_inv in E0. rewrite E0, vop_nil in Hv. done. }
        apply swp_bind.
        assert (swp (node_mod c (on_children (vop sd))) (fun a s' => swp (Ret (Some a)) Q' E' s') E' s').
        { eapply (m_mod _ _ _ _ _ s' c); [exact HM'|by rewrite lookup_insert| |].
          - unfold on_children. cbn [n_children n_keys]. by rewrite (vop_map _ _ _ _ _ Hv).
          - intros s'' HM'' _. rewrite insert_insert in HM''. apply swp_ret. by apply HQ1. }
        by destruct sd. }
    apply R2; [exact HM2|]. clear R2. intros s2 HM3. apply swp_bind.
    unfold swap_donor_key. pose proof (lookup_lt_Some _ _ _ D2) as Hki.
    eapply (m_mod _ _ _ _ _ s2 f); [exact HM3|by rewrite lookup_insert_ne| |].
    { unfold on_keys. cbn [node_of n_keys n_children]. rewrite D2. cbn [mbind option_bind]. unfold vec_splice.
      destruct (Nat.leb_spec (get_key_index sd i) (get_key_index sd i + 1)) as [_|]; [|lia].
      destruct (Nat.leb_spec (get_key_index sd i + 1) (length (tkeys ft))) as [_|]; [|lia].
      cbn [andb mbind option_bind app]. rewrite Nat.add_1_r. rewrite <-insert_take_drop by done. reflexivity. }
    intros s3 HM4 _. apply swp_bind.
    set (fn1 := Node (<[get_key_index sd i := dk]> (tkeys ft)) (map tref (tkids ft))) in *.
    assert (forall (Q' : unit -> st -> Prop) (E' : stop -> st -> Prop) s', MI (tref dn :: M) (<[f := fn1]> (<[c := node_of dn']> K)) s' ->
      (forall s'', MI (tref dn :: M) (<[dc := node_of dc']> (<[f := fn1]> (<[c := node_of dn']> K))) s'' -> Q' tt s'') ->
      swp (insert_donations sd dc fk (tref <$> oc)) Q' E' s') as R3.
    { intros Q' E' s' HM' HQ1. unfold insert_donations, dc' in *. clear HQ'.
      destruct sd.
      - apply swp_bind. eapply (m_mod _ _ _ _ _ s' dc); [exact HM'| |reflexivity|].
        { rewrite !lookup_insert_ne by done. exact Hdc. }
        intros s4 HM5 _. cbn [node_of n_keys n_children] in HM5.
        destruct oc as [x|]; simpl.
        + eapply (m_mod _ _ _ _ _ s4 dc); [exact HM5|by rewrite lookup_insert|reflexivity|].
          intros s5 HM6 _. rewrite insert_insert in HM6. by apply HQ1.
        + apply swp_ret. by apply HQ1.
      - apply swp_bind. eapply (m_mod _ _ _ _ _ s' dc); [exact HM'| |reflexivity|].
        { rewrite !lookup_insert_ne by done. exact Hdc. }
        intros s4 HM5 _. cbn [node_of n_keys n_children] in HM5.
        destruct oc as [x|]; simpl.
        + eapply (m_mod _ _ _ _ _ s4 dc); [exact HM5|by rewrite lookup_insert|reflexivity|].
          intros s5 HM6 _. rewrite insert_insert in HM6. apply HQ1. cbn [n_keys n_children] in HM6.
          unfold node_of. cbn [tkeys tkids]. by rewrite map_app.
        + apply swp_ret. apply HQ1. unfold node_of. cbn [tkeys tkids]. by rewrite app_nil_r. }
    apply R3; [exact HM4|]. clear R3. intros s4 HM5.
    unfold add_node. cbn [ch_seq ch_nodes ch_key ch_value]. rewrite Hseq. fold len. apply swp_bind.
    pose proof (lookup_lt_Some _ _ _ D1) as Hj.
    unfold set_child. eapply (m_mod _ _ _ _ _ s4 f); [exact HM5|by rewrite lookup_insert_ne, lookup_insert| |].
    { unfold on_children, fn1. cbn [n_keys n_children]. unfold vec_set. rewrite map_length.
      destruct (Nat.ltb_spec j (length (tkids ft))) as [_|]; [|lia]. reflexivity. }
    intros s5 HM6 _. rewrite app_length. cbn [length]. fold len. rewrite Nat.add_1_r. apply swp_bind.
    eapply (m_mod _ _ _ _ _ s5 f); [exact HM6|by rewrite lookup_insert| |].
    { unfold on_children. cbn [n_keys n_children]. unfold vec_set. rewrite insert_length, map_length.
      destruct (Nat.ltb_spec i (length (tkids ft))) as [_|]; [|lia]. reflexivity. }
    intros s6 HM7 _. apply swp_ret. rewrite <-app_assoc. apply HQ'.
    assert (node_of f' = Node (<[get_key_index sd i := dk]> (tkeys ft)) (<[i:=(q, S len)]> (<[j:=(q, len)]> (map tref (tkids ft))))) as Ef.
    { unfold f', rotated, node_of. cbn [tkeys tkids]. f_equal. fold dn' dc'.
      rewrite !(list_fmap_insert tref). f_equal. unfold dc'. by destruct sd. }
    rewrite <-Ef in HM7. unfold K'. rewrite insert_insert in HM7.
    rewrite (insert_commute _ f dc), insert_insert in HM7 by done. 
    rewrite (insert_commute _ f dc) by done. done.
  Qed.

  Lemma Pre_mi f ft i dc dct M K ch s s' : MI M K s' -> Pre f ft i dc dct M K ch s -> Pre f ft i dc dct M K ch s'.
  Proof. by intros HM [? ? ? ? ? ? ? ? ? ? ? ? ? ?]. Qed.

  Lemma m_maybe_merge sd f ft i dc dct M K ch s (Q : option changes -> st -> Prop) (E : stop -> st -> Prop) :
    Pre f ft i dc dct M K ch s ->
    (donor sd ft i = None -> Q None s) ->
    (forall j dn fk K' s' ch', donor sd ft i = Some (j, dn, fk) ->
       Post f dc M K ch (merged q (length (ch_nodes ch)) (get_key_index sd i) ft
         (match sd with SLeft => dn | SRight => dct end) (match sd with SLeft => dct | SRight => dn end) fk)
       (S (length (ch_nodes ch))) (tref dn) K' ch' s' -> Q (Some ch') s') ->
    Ebad E -> swp (maybe_merge_g sd f i dc ch) Q E s.
  Proof.
    intros HP HQ1 HQ2 HE. pose proof HP as [HM Hf Hdc Hne Hfn Hdn Hnd Hdom Hseq Hlen Hi Hold Hsibs Hkids].
    unfold maybe_merge_g. apply swp_bind. eapply m_donor_index; [exact HM|exact Hf|done|done|].
    destruct (donor sd ft i) as [[[j dn] fk]|] eqn:Hd; cbn [fmap option_fmap option_map fst snd].
    2:{ apply swp_ret. by apply HQ1. }
    destruct (donor_facts _ _ _ _ _ _ Hd) as (D1 & D2 & D3 & D4 & D5).
    assert (told dn) as Hdold. { destruct Hold as [F1 F2]. rewrite Forall_forall in F1, F2. destruct D4; auto. }
    assert (tref dn ∈ sibs [(ft, i)]) as Hin.
    { simpl. rewrite app_nil_r. rewrite elem_of_app. destruct D4 as [D4|D4]; [left|right]; by apply tref_in. }
    destruct (Hsibs _ Hin) as [Hs1 Hs2]. apply swp_bind.
    eapply m_get_child; [exact HM|exact Hf| |exact Hs1|exact Hs2|apply Hdold, subs_self| |exact HE].
    { cbn [node_of n_children]. change (map tref (tkids ft)) with (tref <$> tkids ft). by rewrite list_lookup_fmap, D1. }
    intros c s1 Hc0 _ HM1 _.
    assert (c <> f) as Hcf by congruence. assert (c <> dc) as Hcd by congruence. rewrite (bool_decide_eq_false_2 (c = dc)) by done.
    assert (c ∉ ch_nodes ch) as Hcn.
    { intros Hx. rewrite Forall_forall in Hdom. destruct (Hdom _ Hx). congruence. }
    set (len := length (ch_nodes ch)) in *. set (ki := get_key_index sd i) in *.
    set (l := match sd with SLeft => dn | SRight => dct end) in *.
    set (r := match sd with SLeft => dct | SRight => dn end) in *.
    set (ln := match sd with SLeft => c | SRight => dc end).
    set (rn := match sd with SLeft => dc | SRight => c end).
    set (K0 := <[c := node_of dn]> K) in *.
    assert (K0 !! ln = Some (node_of l)) as Hln.
    { unfold ln, l, K0. destruct sd; [by rewrite lookup_insert|by rewrite lookup_insert_ne]. }
    assert (K0 !! rn = Some (node_of r)) as Hrn.
    { unfold rn, r, K0. destruct sd; [by rewrite lookup_insert_ne|by rewrite lookup_insert]. }
    assert (ln <> rn) as Hlr by (unfold ln, rn; by destruct sd).
    assert (ln <> f) as Hlf by (unfold ln; by destruct sd).
    assert (rn <> f) as Hrf by (unfold rn; by destruct sd).
    assert (ln ∉ ch_nodes ch) as Hlnn by (unfold ln; by destruct sd).
    assert (K0 !! f = Some (node_of ft)) as Hf0 by (unfold K0; by rewrite lookup_insert_ne).
    assert (match sd with SRight => (i + 1)%nat | SLeft => i end = S ki) as Hrci.
    { unfold ki. destruct sd; simpl; lia. }
    assert (S ki < length (tkids ft))%nat as Hlt.
    { apply lookup_lt_Some in D1. unfold ki. destruct sd; simpl; lia. }
    set (t' := Nd (q, len) (tkeys l ++ fk :: tkeys r) (tkids l ++ tkids r)).
    set (f' := merged q len ki ft l r fk).
    set (K' := <[f := node_of f']> (<[ln := node_of t']> (<[rn := Node [] []]> K0))).
    assert (forall s', MI (tref dn :: M) K' s' ->
      Q (Some (Changes q (ch_key ch) (ch_value ch) (ch_nodes ch ++ [ln]))) s') as HQ'.
    { intros s' HM'. apply (HQ2 j dn fk K'); [done|].
      assert (forall n, n <> f -> n <> ln -> n <> rn -> K' !! n = K0 !! n) as HneK.
      { intros n ???. unfold K'. by rewrite !lookup_insert_ne. }
      assert (c = ln /\ dc = rn \/ c = rn /\ dc = ln) as Hcase by (unfold ln, rn; destruct sd; auto).
      assert (forall n, n ∈ ch_nodes ch -> K' !! n = K !! n) as Heq.
      { intros n Hn. assert (n <> c) by (by intros ->). assert (n <> dc) by (by intros ->).
        rewrite HneK; [unfold K0; by rewrite lookup_insert_ne|by intros ->|..]; destruct Hcase as [[E1 E2]|[E1 E2]]; congruence. }
      assert (forall t, Rt K (ch_nodes ch) t -> Rt K' (ch_nodes ch ++ [ln]) t) as HR.
      { intros t. apply Rt_mono; [by apply prefix_app_r|done]. }
      assert (Forall (Rt K' (ch_nodes ch ++ [ln])) (tkids dn)) as HRd.
      { apply Forall_forall. intros t Ht. apply told_Rt. by eapply told_kid. }
      assert (Forall (Rt K' (ch_nodes ch ++ [ln])) (tkids dct)) as HRk by (eapply Forall_impl; eauto).
      assert (Rt K' (ch_nodes ch ++ [ln]) t') as HRt.
      { apply Rt_intro.
        - left. split; [done|]. exists ln. simpl. split; [by rewrite lookup_app_r, Nat.sub_diag by done|].
          unfold K'. by rewrite !lookup_insert_ne, lookup_insert by done.
        - simpl. unfold l, r. destruct sd; by apply Forall_app. }
      assert (forall k t, k <> i -> tkids ft !! k = Some t -> told t) as Hk.
      { intros k t Hk Hkt. destruct Hold as [F1 F2]. simpl in F1, F2. destruct (decide (k < i)%nat).
        + apply (Forall_lookup_1 _ _ k t F1). by rewrite lookup_take by lia.
        + apply (Forall_lookup_1 _ _ (k - S i)%nat t F2). rewrite lookup_drop. by replace (S i + (k - S i))%nat with k by lia. }
      split; cbn [ch_nodes ch_key ch_value ch_seq].
      - done.
      - unfold K'. by rewrite lookup_insert.
      - rewrite elem_of_app, !elem_of_cons, elem_of_nil. naive_solver.
      - by apply NoDup_fresh.
      - by apply prefix_app_r.
      - intros n. rewrite elem_of_app, elem_of_list_singleton. intros [?| ->]; [by auto|].
        destruct Hcase as [[E1 E2]|[E1 E2]]; rewrite <-?E1, <-?E2; auto.
      - intros n H1 H2 H3. assert (n <> c). { intros ->. rewrite Hc0 in H3. by destruct H3. }
        rewrite HneK; [unfold K0; by rewrite lookup_insert_ne|done|..]; destruct Hcase as [[E1 E2]|[E1 E2]]; congruence.
      - apply Forall_app. split.
        + apply Forall_forall. intros n Hn. rewrite Heq by done. rewrite Forall_forall in Hdom. by apply Hdom.
        + apply Forall_singleton. unfold K'. rewrite lookup_insert_ne, lookup_insert by done. by eexists.
      - rewrite app_length. simpl. fold len. lia.
      - done.
      - done.
      - done.
      - unfold f', merged. cbn [tkids]. fold t'. apply Forall_app. split; [|apply Forall_cons; split; [done|]].
        + apply Forall_forall. intros t Ht. apply elem_of_list_lookup in Ht as [k Ht].
          apply lookup_take_Some in Ht as [Ht Hlt']. apply told_Rt, (Hk k); [|done].
          unfold ki in Hlt'. destruct sd; simpl in Hlt'; lia.
        + apply Forall_forall. intros t Ht. apply elem_of_list_lookup in Ht as [k Ht].
          rewrite lookup_drop in Ht. apply told_Rt, (Hk (S (S ki) + k)%nat t); [|done].
          unfold ki. destruct sd; simpl; lia. }
    clear HQ1 HQ2.
    replace (match sd with SLeft => (c, dc) | SRight => (dc, c) end) with (ln, rn) by (unfold ln, rn; by destruct sd).
    rewrite Hrci. apply swp_bind.
    eapply (m_mod _ _ _ _ _ s1 f); [exact HM1|exact Hf0| |].
    { unfold on_keys, vec_remove. cbn [node_of n_keys n_children]. fold ki. rewrite D2. reflexivity. }
    intros s2 HM2 _. apply swp_bind.
    eapply (m_mod _ _ _ _ _ s2 f); [exact HM2|by rewrite lookup_insert| |].
    { unfold on_children, vec_splice. cbn [n_keys n_children]. rewrite map_length.
      destruct (Nat.leb_spec (S ki) (S ki + 1)) as [_|]; [|lia].
      destruct (Nat.leb_spec (S ki + 1) (length (tkids ft))) as [_|]; [|lia].
      cbn [andb only fmap option_fmap option_map app]. reflexivity. }
    intros s3 HM3 _. rewrite insert_insert in HM3. apply swp_bind.
    eapply m_num_keys; [exact HM3|rewrite lookup_insert_ne by done; exact Hln|]. apply swp_bind.
    eapply (m_mod _ _ _ _ _ s3 rn); [exact HM3|rewrite lookup_insert_ne by done; exact Hrn|reflexivity|].
    intros s4 HM4 _. apply swp_bind. cbn [node_of n_keys n_children] in HM4 |- *.
    eapply (m_mod _ _ _ _ _ s4 ln); [exact HM4|by rewrite !lookup_insert_ne; [exact Hln|done|done]| |].
    { unfold on_keys, vec_splice. cbn [node_of n_keys n_children].
      rewrite Nat.leb_refl. cbn [andb only fmap option_fmap option_map].
      rewrite (take_ge (tkeys l)) by done. rewrite (drop_ge (tkeys l)) by done. rewrite app_nil_r. reflexivity. }
    intros s5 HM5 _. apply swp_bind.
    eapply m_num_children; [exact HM5|by rewrite lookup_insert|]. apply swp_bind.
    eapply (m_mod _ _ _ _ _ s5 rn); [exact HM5|by rewrite lookup_insert_ne, lookup_insert by done|reflexivity|].
    intros s6 HM6 _. apply swp_bind. cbn [n_keys n_children] in HM6 |- *.
    eapply (m_mod _ _ _ _ _ s6 ln); [exact HM6|by rewrite lookup_insert_ne, lookup_insert by done| |].
    { unfold on_children, vec_splice. cbn [n_keys n_children].
      rewrite Nat.leb_refl. cbn [andb only fmap option_fmap option_map].
      rewrite (take_ge (map tref (tkids l))) by done. rewrite (drop_ge (map tref (tkids l))) by done.
      rewrite app_nil_r, <-map_app. reflexivity. }
    intros s7 HM7 _. unfold add_node. rewrite Hseq. fold len.
    change (Node (tkeys l ++ fk :: tkeys r) (map tref (tkids l ++ tkids r))) with (node_of t') in HM7.
    apply swp_bind.
    eapply (m_mod _ _ _ _ _ s7 f); [exact HM7| | |].
    { rewrite !lookup_insert_ne, lookup_insert by done. reflexivity. }
    { unfold on_children, vec_splice. cbn [n_keys n_children].
      replace (S ki - 1)%nat with ki by lia.
      destruct (Nat.leb_spec ki (S ki)) as [_|]; [|lia].
      rewrite app_length, take_length, drop_length, map_length.
      destruct (Nat.leb_spec (S ki) (S ki `min` length (tkids ft) + (length (tkids ft) - (S ki + 1)))) as [_|]; [|lia].
      cbn [andb only fmap option_fmap option_map app]. reflexivity. }
    intros s8 HM8 _. apply swp_ret. apply HQ'.
    assert (node_of f' = Node (take ki (tkeys ft) ++ drop (S ki) (tkeys ft))
      (take ki (take (S ki) (map tref (tkids ft)) ++ drop (S ki + 1) (map tref (tkids ft))) ++
       (q, len) :: drop (S ki) (take (S ki) (map tref (tkids ft)) ++ drop (S ki + 1) (map tref (tkids ft))))) as Ef.
    { unfold f', merged, node_of. cbn [tkeys tkids]. f_equal. rewrite map_app. cbn [map].
      rewrite take_app_le by (rewrite take_length, map_length; lia). rewrite take_take, Nat.min_l by lia.
      rewrite drop_app_alt by (rewrite take_length, map_length; lia).
      rewrite firstn_map, skipn_map. by rewrite Nat.add_1_r. }
    rewrite <-Ef in HM8.
    eassert (K' = _) as ->; [|exact HM8]. apply map_eq. intros n. unfold K'.
    destruct (decide (n = f)) as [->|]; [by rewrite !lookup_insert|].
    rewrite (lookup_insert_ne _ f) by done. rewrite (lookup_insert_ne _ f n (node_of f')) by done.
    destruct (decide (n = ln)) as [->|]; [by rewrite !lookup_insert|].
    rewrite (lookup_insert_ne _ ln) by done. rewrite (lookup_insert_ne _ ln n (node_of t')) by done.
    destruct (decide (n = rn)) as [->|]; [by rewrite !lookup_insert|].
    by rewrite !lookup_insert_ne.
  Qed.

  Lemma vop_SLeft {A} (l : list A) x : last l = Some x -> vop SLeft l = Some (x, init l).
  Proof. simpl. unfold vec_pop, init. by intros ->. Qed.
  Lemma vop_SRight {A} (l : list A) x : head l = Some x -> vop SRight l = Some (x, drop 1 l).
  Proof. destruct l; simpl; [done|]. unfold vec_remove. by intros [= ->]. Qed.

  (** What [maybe_rotate] computes. *)
  Definition try_rot (sd : side) (len : nat) (f : tree) (i : nat) (dc : tree) : option (tree * nat * ref) :=
    match sd with SLeft => try_rot_l q len f i dc | SRight => try_rot_r q len f i dc end.
  Definition try_merge (sd : side) (len : nat) (f : tree) (i : nat) (dc : tree) : option (tree * nat * ref) :=
    match sd with SLeft => try_merge_l q len f i dc | SRight => try_merge_r q len f i dc end.

  Lemma try_rot_eq sd len f i dc :
    match donor sd f i with
    | None => try_rot sd len f i dc = None
    | Some (j, dn, fk) =>
        ((length (tkeys dn) <= 4)%nat -> try_rot sd len f i dc = None) /\
        ((4 < length (tkeys dn))%nat -> exists dk dks oc dcs, vop sd (tkeys dn) = Some (dk, dks) /\
           (tkids dn = [] /\ oc = None /\ dcs = [] \/ exists x, oc = Some x /\ vop sd (tkids dn) = Some (x, dcs)) /\
           try_rot sd len f i dc = Some (rotated sd len f i dc j fk dk dks oc dcs, S (S len), tref dn))
    end.
  Proof.
    destruct sd; unfold donor, try_rot, try_rot_l, try_rot_r.
    - destruct (donor_l f i) as [[[j dn] fk]|] eqn:Ed; [|done].
      assert (i = S j) as Hi. { destruct i; simpl in Ed; [done|]. repeat case_match; congruence. }
      destruct (Nat.ltb_spec 4 (length (tkeys dn))) as [H|H]; (split; [done || lia|]); [|lia]. intros _.
      destruct (last (tkeys dn)) as [dk|] eqn:El.
      2:{ apply last_None in El. rewrite El in H. simpl in H. lia. }
      exists dk, (init (tkeys dn)), (last (tkids dn)), (init (tkids dn)). split; [by apply vop_SLeft|]. split.
      + destruct (last (tkids dn)) as [x|] eqn:Ex.
        * right. exists x. split; [done|]. by apply vop_SLeft.
        * apply last_None in Ex. rewrite Ex. by left.
      + unfold rotated, rot_l, get_key_index. subst i. by replace (S j - 1)%nat with j by lia.
    - destruct (donor_r f i) as [[dn fk]|] eqn:Ed; [|done].
      destruct (Nat.ltb_spec 4 (length (tkeys dn))) as [H|H]; (split; [done || lia|]); [|lia]. intros _.
      destruct (head (tkeys dn)) as [dk|] eqn:El.
      2:{ apply head_None in El. rewrite El in H. simpl in H. lia. }
      exists dk, (drop 1 (tkeys dn)), (head (tkids dn)), (drop 1 (tkids dn)). split; [by apply vop_SRight|]. split.
      + destruct (head (tkids dn)) as [x|] eqn:Ex.
        * right. exists x. split; [done|]. by apply vop_SRight.
        * apply head_None in Ex. rewrite Ex. by left.
      + done.
  Qed.

  Lemma m_maybe_rotate sd f ft i dc dct M K ch s (Q : option changes -> st -> Prop) (E : stop -> st -> Prop) :
    Pre f ft i dc dct M K ch s ->
    (forall s', MI M K s' -> try_rot sd (length (ch_nodes ch)) ft i dct = None -> Q None s') ->
    (forall f' len' d K' s' ch', try_rot sd (length (ch_nodes ch)) ft i dct = Some (f', len', d) ->
       Post f dc M K ch f' len' d K' ch' s' -> Q (Some ch') s') ->
    Ebad E -> swp (maybe_rotate sd f i dc MAX_KEYS ch) Q E s.
  Proof.
    intros HP HQ1 HQ2 HE. unfold maybe_rotate. apply swp_bind.
    pose proof (try_rot_eq sd (length (ch_nodes ch)) ft i dct) as Ht.
    eapply m_can_rotate; [apply HP|apply HP|apply HP|apply HP|apply HP|apply HP| | |done].
    - intros s' HM Hle. apply swp_ret. apply HQ1; [done|].
      destruct (donor sd ft i) as [[[j dn] fk]|]; [|done]. apply Ht. by eapply Hle.
    - intros j dn fk c s' Hd H4 HM Hloc Hh. rewrite Hd in Ht. destruct Ht as [_ Ht].
      destruct (Ht H4) as (dk & dks & oc & dcs & V1 & V2 & V3). apply swp_bind.
      eapply m_rotate; [by eapply Pre_mi|exact Hd|exact Hloc|exact Hh|exact V1|exact V2|].
      intros K' s'' ch' HP'. apply swp_ret. by eapply HQ2.
  Qed.

  Lemma try_merge_eq sd len f i dc :
    try_merge sd len f i dc =
    match donor sd f i with
    | None => None
    | Some (j, dn, fk) => Some (merged q len (get_key_index sd i) f (match sd with SLeft => dn | SRight => dc end)
        (match sd with SLeft => dc | SRight => dn end) fk, S len, tref dn)
    end.
  Proof.
    destruct sd; unfold donor, try_merge, try_merge_l, try_merge_r.
    - destruct (donor_l f i) as [[[j dn] fk]|] eqn:Ed; [|done].
      assert (i = S j) as Hi. { destruct i; simpl in Ed; [done|]. repeat case_match; congruence. }
      subst i. unfold get_key_index. by replace (S j - 1)%nat with j by lia.
    - by destruct (donor_r f i) as [[dn fk]|] eqn:Ed.
  Qed.

  Lemma prep1_donor len f i dc f' len' d : prep1 q len f i dc = Some (f', len', d) -> d ∈ sibs [(f, i)].
  Proof.
    intros E1. unfold prep1 in E1.
    assert (forall sd j dn fk, donor sd f i = Some (j, dn, fk) -> tref dn ∈ sibs [(f, i)]) as Hdn.
    { intros sd j dn fk Hdo. destruct (donor_facts _ _ _ _ _ _ Hdo) as (_ & _ & _ & D4 & _). simpl. rewrite app_nil_r.
      rewrite elem_of_app. destruct D4; [left|right]; by apply tref_in. }
    pose proof (try_rot_eq SLeft len f i dc) as R1.
    pose proof (try_rot_eq SRight len f i dc) as R2.
    pose proof (try_merge_eq SLeft len f i dc) as R3.
    pose proof (try_merge_eq SRight len f i dc) as R4.
    cbn [try_rot try_merge] in *.
    pose proof (Hdn SLeft) as HdL. pose proof (Hdn SRight) as HdR.
    destruct (donor SLeft f i) as [[[jl dnl] fkl]|]; destruct (donor SRight f i) as [[[jr dnr] fkr]|];
      repeat match goal with
      | H : _ /\ _ |- _ => destruct H
      | H : (length (tkeys ?dn) <= 4)%nat -> _, H' : (4 < length (tkeys ?dn))%nat -> _ |- _ =>
          let Hx := fresh in destruct (le_lt_dec (length (tkeys dn)) 4) as [Hx|Hx]; [specialize (H Hx); clear H'|clear H; destruct (H' Hx) as (? & ? & ? & ? & _ & _ & H); clear H']
      end;
      repeat match goal with
      | H : try_rot_l _ _ _ _ _ = _ |- _ => rewrite H in E1; clear H
      | H : try_rot_r _ _ _ _ _ = _ |- _ => rewrite H in E1; clear H
      | H : try_merge_l _ _ _ _ _ = _ |- _ => rewrite H in E1; clear H
      | H : try_merge_r _ _ _ _ _ = _ |- _ => rewrite H in E1; clear H
      end; try done; injection E1 as _ _ <-; eauto.
  Qed.

  Lemma m_repair_one f ft i dc dct M K ch s f' len' d (Q : changes -> st -> Prop) (E : stop -> st -> Prop) :
    Pre f ft i dc dct M K ch s ->
    prep1 q (length (ch_nodes ch)) ft i dct = Some (f', len', d) ->
    (forall K' s' ch', Post f dc M K ch f' len' d K' ch' s' -> Q ch' s') ->
    Ebad E -> swp (repair_one_g f i dc MAX_KEYS ch) Q E s.
  Proof.
    intros HP Hp HQ HE. unfold prep1 in Hp. unfold repair_one_g. apply swp_bind.
    eapply m_maybe_rotate; [exact HP| | |done].
    2:{ intros f1 l1 d1 K' s' ch' Ht HP'. simpl in Ht. rewrite Ht in Hp. injection Hp as -> -> ->. apply swp_ret. by eapply HQ. }
    intros s1 HM1 Ht1. simpl in Ht1. rewrite Ht1 in Hp. apply (Pre_mi _ _ _ _ _ _ _ _ _ _ HM1) in HP. apply swp_bind.
    eapply m_maybe_rotate; [exact HP| | |done].
    2:{ intros f1 l1 d1 K' s' ch' Ht HP'. simpl in Ht. rewrite Ht in Hp. injection Hp as -> -> ->. apply swp_ret. by eapply HQ. }
    intros s2 HM2 Ht2. simpl in Ht2. rewrite Ht2 in Hp. apply (Pre_mi _ _ _ _ _ _ _ _ _ _ HM2) in HP. apply swp_bind.
    pose proof (try_merge_eq SLeft (length (ch_nodes ch)) ft i dct) as Hm1. cbn [try_merge] in Hm1.
    pose proof (try_merge_eq SRight (length (ch_nodes ch)) ft i dct) as Hm2. cbn [try_merge] in Hm2.
    eapply m_maybe_merge; [exact HP| | |done].
    2:{ intros j dn fk K' s' ch' Hd HP'. rewrite Hd in Hm1. rewrite Hm1 in Hp. injection Hp as <- <- <-. apply swp_ret. by eapply HQ. }
    intros Hd. rewrite Hd in Hm1. rewrite Hm1 in Hp. apply swp_bind.
    eapply m_maybe_merge; [exact HP| | |done].
    2:{ intros j dn fk K' s' ch' Hd' HP'. rewrite Hd' in Hm2. rewrite Hm2 in Hp. injection Hp as <- <- <-. apply swp_ret. by eapply HQ. }
    intros Hd'. rewrite Hd' in Hm2. congruence.
  Qed.

  (** The frames above. *)
  Definition okz (tp : zipper) : Prop :=
    Forall (fun x => length (tkids (fst x)) = S (length (tkeys (fst x))) /\ (snd x <= length (tkeys (fst x)))%nat) tp.

  Lemma m_repair_loop p : forall f ft i dc dct tp M K ch s t tpr len' D (Q : ref * path * changes -> st -> Prop) (E : stop -> st -> Prop),
    MI M K s -> pK K ((f, i) :: p) ((ft, i) :: tp) -> K !! dc = Some (node_of dct) ->
    NoDup (dc :: map fst ((f, i) :: p) ++ ch_nodes ch) ->
    Forall (fun n => is_Some (K !! n)) (ch_nodes ch) -> ch_seq ch = q ->
    okz ((ft, i) :: tp) -> zold ((ft, i) :: tp) ->
    NoDup (sibs ((ft, i) :: tp)) -> (forall r, r ∈ sibs ((ft, i) :: tp) -> r ∈ RS /\ r ∉ M) ->
    Forall (Rt K (ch_nodes ch)) (tkids dct) ->
    prep q (length (ch_nodes ch)) tp ft i dct = Some (t, tpr, len', D) ->
    (forall K' s' ch' p', MI (D ++ M) K' s' -> pK K' p' tpr -> NoDup (map fst p' ++ ch_nodes ch') ->
       len' = length (ch_nodes ch') -> ch_seq ch' = q -> ch_key ch' = ch_key ch -> ch_value ch' = ch_value ch ->
       Rt K' (ch_nodes ch') t -> zold tpr -> okz tpr -> (forall r, r ∈ D -> r ∈ sibs ((ft, i) :: tp)) ->
       Q (tref t, p', ch') s') ->
    Ebad E -> swp (repair_loop_g p f i dc MAX_KEYS ch) Q E s.
  Proof.
    induction p as [|[n k] p IH]; intros f ft i dc dct tp M K ch s t tpr len' D Q E HM Hp Hdc Hnd Hdom Hseq Hokz Hz Hns Hs Hk Hprep HQ HE.
    - inversion Hp as [|x y p0 tp0 [_ Hf] Hp']; subst. inversion Hp'; subst. simpl in Hf.
      apply Forall_cons in Hokz as [[Hl Hi] _]. apply Forall_cons in Hz as [Hfo _]. simpl in Hl, Hi.
      simpl in Hnd. rewrite !NoDup_cons, not_elem_of_cons in Hnd. destruct Hnd as ([Hn1 Hn2] & Hn3 & Hnd).
      assert (Pre f ft i dc dct M K ch s) as HP by (by split).
      cbn [prep] in Hprep.
      destruct (prep1 q (length (ch_nodes ch)) ft i dct) as [[[f' l1] d]|] eqn:E1; [|done].
      cbn [repair_loop_g]. apply swp_bind. eapply m_repair_one; [exact HP|exact E1| |done].
      intros K' s1 ch' [P1 P2 P3 P4 P5 P6 P7 P8 P9 P10 P11 P12 P13].
      apply swp_bind. eapply m_num_keys; [exact P1|exact P2|]. apply swp_bind.
      eapply m_num_children; [exact P1|exact P2|]. cbn [node_of n_keys n_children]. rewrite map_length.
      assert (swp (let '(r, ch'') := add_node f ch' in Ret (r, [], ch'')) Q E s1 \/ (exists c, tkeys f' = [] /\ tkids f' = [c])) as Hc.
      { destruct (decide (tkeys f' = [] /\ length (tkids f') = 1)) as [[A1 A2]|HA].
        { right. destruct (tkids f') as [|c [|]]; simpl in A2; try lia. by exists c. }
        left. assert (Some (Nd (q, l1) (tkeys f') (tkids f'), [], S l1, [d]) = Some (t, tpr, len', D)) as Hx.
        { rewrite <-Hprep. destruct (tkeys f'); [|done]. destruct (tkids f') as [|c [|]]; try done.
          exfalso. by apply HA. }
        injection Hx as <- <- <- <-. unfold add_node. apply swp_ret. rewrite P10, <-P9.
        change (q, l1) with (tref (Nd (q, l1) (tkeys f') (tkids f'))). apply (HQ K'); try done; try (by constructor); try (by intros r ->%elem_of_list_singleton; eapply prep1_donor).
        - simpl. by apply NoDup_fresh.
        - simpl. rewrite app_length. simpl. lia.
        - apply Rt_intro.
          + left. split; [done|]. exists f. simpl. split; [by rewrite P9, lookup_app_r, Nat.sub_diag by lia|done].
          + simpl. eapply Forall_impl; [exact P13|]. intros c. apply Rt_mono; [by apply prefix_app_r|done]. }
      destruct (Nat.eqb_spec (length (tkeys f')) 0) as [A1|A1]; cbn [andb].
      2:{ destruct Hc as [|(c & Hc1 & _)]; [done|]. rewrite Hc1 in A1. done. }
      destruct (Nat.eqb_spec (length (tkids f')) 1) as [A2|A2].
      2:{ destruct Hc as [|(c & _ & Hc1)]; [done|]. rewrite Hc1 in A2. done. }
      apply nil_length_inv in A1. destruct (tkids f') as [|c [|]] eqn:Ek; simpl in A2; try lia.
      rewrite A1 in Hprep. injection Hprep as <- <- <- <-. clear Hc.
      apply swp_bind. eapply m_node_get; [exact P1|exact P2|]. cbn [node_of n_children]. rewrite Ek. cbn [map].
      apply swp_bind. eapply swp_unwrap; [done|]. apply swp_ret. apply (HQ K'); try done; try (by constructor); try (by intros r ->%elem_of_list_singleton; eapply prep1_donor).
      apply Forall_cons in P13 as [? _]. done.
    - inversion Hp as [|x y p0 tp0 [_ Hf] Hp']; subst. inversion Hp' as [|? [u k'] ? tp1 [Ek Hn] Hp'']; subst. simpl in Hf, Ek, Hn. subst k'.
      apply Forall_cons in Hokz as [[Hl Hi] Hokz]. apply Forall_cons in Hz as [Hfo Hz]. simpl in Hl, Hi.
      pose proof Hnd as Hnd0.
      simpl in Hnd. rewrite !NoDup_cons, !not_elem_of_cons in Hnd. destruct Hnd as ((Hn1 & Hn2 & Hn3) & (Hn4 & Hn5) & Hn6 & Hnd).
      rewrite not_elem_of_app in Hn3. rewrite not_elem_of_app in Hn5. rewrite not_elem_of_app in Hn6.
      destruct Hn3 as [Hn3 Hn3']. destruct Hn5 as [Hn5 Hn5']. destruct Hn6 as [Hn6 Hn6']. apply NoDup_app in Hnd as (Hnd1 & Hnd2 & Hnd3).
      set (sib1 := concat (map refs (take i (tkids ft))) ++ concat (map refs (drop (S i) (tkids ft)))) in *.
      assert (sibs ((ft, i) :: (u, k) :: tp1) = sib1 ++ sibs ((u, k) :: tp1)) as Hsib.
      { unfold sib1. by rewrite <-app_assoc. }
      assert (sibs [(ft, i)] = sib1) as Hsib1 by (unfold sib1; simpl; by rewrite app_nil_r).
      rewrite Hsib in Hns, Hs. apply NoDup_app in Hns as (Hns1 & Hns2 & Hns3).
      assert (Pre f ft i dc dct M K ch s) as HP.
      { split; try done; try (by intros ->). intros r Hr. apply Hs. rewrite Hsib1 in Hr. apply elem_of_app. by left. }
      cbn [prep] in Hprep.
      destruct (prep1 q (length (ch_nodes ch)) ft i dct) as [[[f' l1] d]|] eqn:E1; [|done].
      assert (d ∈ sib1) as Hd by (by rewrite <-Hsib1; eapply prep1_donor).
      cbn [repair_loop_g]. apply swp_bind. eapply m_repair_one; [exact HP|exact E1| |done].
      intros K' s1 ch' [P1 P2 P3 P4 P5 P6 P7 P8 P9 P10 P11 P12 P13].
      apply swp_bind. eapply m_num_keys; [exact P1|exact P2|]. apply swp_bind.
      eapply m_num_children; [exact P1|exact P2|]. cbn [node_of n_keys n_children]. change (min_keys MAX_KEYS) with 4.
      assert (forall n', n' ∈ map fst ((n, k) :: p) -> n' <> f /\ n' <> dc /\ n' ∉ ch_nodes ch') as Hpath.
      { intros n' Hn'. simpl in Hn'. assert (n' <> f). { intros ->. by apply elem_of_cons in Hn' as [|]. }
        assert (n' <> dc). { intros ->. by apply elem_of_cons in Hn' as [|]. }
        split_and!; try done. intros Hx. apply P6 in Hx as [Hx|[Hx|Hx]]; [|done|].
        - apply elem_of_cons in Hn' as [->|Hn']; [done|]. by eapply Hnd2.
        - destruct (pK_dom _ _ _ _ Hp' Hn') as [? He]. congruence. }
      assert (pK K' ((n, k) :: p) ((u, k) :: tp1)) as HpK.
      { eapply pK_mono; [|exact Hp']. intros n' Hn'. destruct (Hpath _ Hn') as (A1 & A2 & A3). apply P7; [done|done|].
        exact (pK_dom _ _ _ _ Hp' Hn'). }
      destruct (Nat.leb_spec 4 (length (tkeys f'))) as [H4|H4].
      + injection Hprep as <- <- <- <-. unfold add_node. apply swp_ret. rewrite P10, <-P9.
        change (q, l1) with (tref (Nd (q, l1) (tkeys f') (tkids f'))). apply (HQ K'); try done.
        * simpl ch_nodes. rewrite app_assoc. apply NoDup_fresh.
          -- apply NoDup_app. split_and!; [by constructor| |done].
             intros n' Hn'. by apply Hpath.
          -- rewrite elem_of_app. intros [Hx|Hx]; [|done]. by apply Hpath in Hx as [? _].
        * simpl. rewrite app_length. simpl. lia.
        * apply Rt_intro.
          -- left. split; [done|]. exists f. simpl. split; [by rewrite P9, lookup_app_r, Nat.sub_diag by lia|done].
          -- simpl. eapply Forall_impl; [exact P13|]. intros c. apply Rt_mono; [by apply prefix_app_r|done].
        * intros r ->%elem_of_list_singleton. rewrite Hsib. apply elem_of_app. by left.
      + rewrite P9 in Hprep. destruct (prep q (length (ch_nodes ch')) tp1 u k f') as [[[[t' tpr'] l'] D']|] eqn:Ep; [|done].
        injection Hprep as <- <- <- <-.
        eapply (IH n u k f f' tp1 (d :: M) K' ch' s1); try done.
        * apply NoDup_cons. split.
          -- rewrite not_elem_of_app. split; [|done]. intros Hx. by apply Hpath in Hx as [? _].
          -- apply NoDup_app. split_and!; [by constructor| |done]. intros n' Hn'. by apply Hpath.
        * intros r Hr. split; [apply Hs; apply elem_of_app; by right|]. rewrite not_elem_of_cons. split.
          -- intros ->. by apply (Hns2 d).
          -- apply Hs; apply elem_of_app; by right.
        * intros K2 s2 ch2 p2 B1 B2 B3 B4 B5 B6 B7 B8 B9 B10 B11. apply (HQ K2); try done; try congruence.
          -- eapply MI_M; [|exact B1]. intros r. simpl. rewrite elem_of_cons, !elem_of_app, elem_of_cons. tauto.
          -- intros r. rewrite Hsib, elem_of_cons, elem_of_app. intros [->|Hr]; [by left|]. right. by apply B11.
  Qed.

End mut.
