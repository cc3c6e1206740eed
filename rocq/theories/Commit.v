(** Committing the changes: [reorder_nodes] and [add_changes]. *)
From Coq.Strings Require Import Byte.
From Coq Require Import Lia Sorting.Sorted.
From stdpp Require Import prelude gmap.
From Verif Require Import Bytes Codec CodecProofs Model Order Wp Store Tree Iter Read Zip Pure Seq Mut MutDel MutTop.

Local Arguments decode_block : simpl never.
Local Arguments blocks_get : simpl never.

(** ** The ghost renumbering *)

(** The subtrees with a node of block [q], in preorder. *)
Fixpoint newsubs (q : nat) (t : tree) : list tree :=
  match t with Nd r _ cs => if (fst r =? q)%nat then t :: concat (map (newsubs q) cs) else [] end.

(** Numbering them in preorder. *)
Fixpoint relabel (q : nat) (start : nat) (t : tree) : tree * nat :=
  match t with
  | Nd r ks cs =>
      if (fst r =? q)%nat then
        let '(cs', nx) :=
          (fix go (cs : list tree) (i : nat) : list tree * nat :=
             match cs with
             | [] => ([], i)
             | c :: cs' =>
                 let '(c', i1) := relabel q i c in
                 let '(r', i2) := go cs' i1 in (c' :: r', i2)
             end) cs (S start) in
        (Nd (q, start) ks cs', nx)
      else (t, start)
  end.
Definition relabels (q : nat) : list tree -> nat -> list tree * nat :=
  fix go (cs : list tree) (i : nat) : list tree * nat :=
    match cs with
    | [] => ([], i)
    | c :: cs' =>
        let '(c', i1) := relabel q i c in
        let '(r', i2) := go cs' i1 in (c' :: r', i2)
    end.
Lemma relabel_Nd q start r ks cs : relabel q start (Nd r ks cs) =
  if (fst r =? q)%nat then let '(cs', nx) := relabels q cs (S start) in (Nd (q, start) ks cs', nx)
  else (Nd r ks cs, start).
Proof. reflexivity. Qed.
Lemma relabels_cons q c cs i : relabels q (c :: cs) i =
  let '(c', i1) := relabel q i c in let '(r', i2) := relabels q cs i1 in (c' :: r', i2).
Proof. reflexivity. Qed.

Lemma newsubs_new q r ks cs : fst r = q -> newsubs q (Nd r ks cs) = Nd r ks cs :: concat (map (newsubs q) cs).
Proof. intros <-. simpl. by rewrite Nat.eqb_refl. Qed.
Lemma newsubs_old q t : fst (tref t) <> q -> newsubs q t = [].
Proof. destruct t as [r ks cs]. simpl. intros H. by apply Nat.eqb_neq in H as ->. Qed.
Lemma relabel_old q i t : fst (tref t) <> q -> relabel q i t = (t, i).
Proof. destruct t as [r ks cs]. simpl. intros H. by apply Nat.eqb_neq in H as ->. Qed.
Lemma relabel_tref q i t : fst (tref t) = q -> tref (fst (relabel q i t)) = (q, i).
Proof. destruct t as [r ks cs]. cbn [tref]. intros <-. rewrite relabel_Nd, Nat.eqb_refl. by destruct (relabels _ _ _). Qed.

Lemma relabel_next q t : forall i, snd (relabel q i t) = (i + length (newsubs q t))%nat.
Proof.
  induction t as [r ks cs IH] using tree_ind'. intros i. rewrite relabel_Nd.
  destruct (Nat.eqb_spec (fst r) q) as [E|E]; [|rewrite newsubs_old by done; simpl; lia].
  rewrite newsubs_new by done. cbn [length].
  assert (forall i, snd (relabels q cs i) = i + length (concat (map (newsubs q) cs)))%nat as H.
  { induction IH as [|c cs Hc _ IHcs]; intros j; [simpl; lia|]. rewrite relabels_cons.
    specialize (Hc j). destruct (relabel q j c) as [c' j1]. specialize (IHcs j1). destruct (relabels q cs j1) as [cs' j2].
    simpl in *. rewrite app_length. lia. }
  specialize (H (S i)). destruct (relabels q cs (S i)). simpl in *. lia.
Qed.

Section reorder.
  Context (C : list bytes) (RS : list ref) (o : list fault) (M : list ref) (nodes : list nid).
  Local Notation MI := (MI C RS o).
  Local Notation q := (length C).

  Definition nrel (K : gmap nid node) (u : tree) (m : nid) : Prop :=
    nodes !! snd (tref u) = Some m /\ K !! m = Some (node_of u).
  Definition krel (K : gmap nid node) (u : tree) (m : nid) : Prop := K !! m = Some (node_of u).

  Lemma nrel_mono K K' us ms : (forall m, m ∈ ms -> K' !! m = K !! m) -> Forall2 (nrel K) us ms -> Forall2 (nrel K') us ms.
  Proof.
    intros HK H. induction H as [|u m us ms [H1 H2] H IH]; constructor.
    - split; [done|]. rewrite HK; [done|left].
    - apply IH. intros m' Hm'. apply HK. by right.
  Qed.
  Lemma krel_mono K K' us ms : (forall m, m ∈ ms -> K' !! m = K !! m) -> Forall2 (krel K) us ms -> Forall2 (krel K') us ms.
  Proof.
    intros HK H. induction H as [|u m us ms H1 H IH]; constructor.
    - unfold krel. rewrite HK; [done|left].
    - apply IH. intros m' Hm'. apply HK. by right.
  Qed.

  Definition ro_tree (t : tree) : Prop :=
    forall n nd ci ms stack out K s f (Q : list nid -> st -> Prop) (E : stop -> st -> Prop),
    fst (tref t) = q -> MI M K s -> K !! n = Some nd -> n_children nd !! ci = Some (tref t) ->
    Forall2 (nrel K) (newsubs q t) ms -> NoDup (n :: ms) ->
    (forall K' s', MI M K' s' -> K' !! n = Some (Node (n_keys nd) (<[ci := (q, length out)]> (n_children nd))) ->
       Forall2 (krel K') (newsubs q (fst (relabel q (length out) t))) ms ->
       (forall m, m ∉ n :: ms -> K' !! m = K !! m) ->
       swp (reorder_loop f q nodes stack (out ++ ms)) Q E s') ->
    swp (reorder_loop (length ms + f) q nodes ((n, ci) :: stack) out) Q E s.

  Lemma ro_kids cs : Forall ro_tree cs ->
    forall n ks dn ms stack out K s f (Q : list nid -> st -> Prop) (E : stop -> st -> Prop),
    MI M K s -> K !! n = Some (Node ks (dn ++ map tref cs)) ->
    Forall2 (nrel K) (concat (map (newsubs q) cs)) ms -> NoDup (n :: ms) ->
    (forall K' s', MI M K' s' -> K' !! n = Some (Node ks (dn ++ map tref (fst (relabels q cs (length out))))) ->
       Forall2 (krel K') (concat (map (newsubs q) (fst (relabels q cs (length out))))) ms ->
       (forall m, m ∉ n :: ms -> K' !! m = K !! m) ->
       swp (reorder_loop f q nodes stack (out ++ ms)) Q E s') ->
    swp (reorder_loop (length ms + f) q nodes (map (fun i => (n, i)) (with_seq q (length dn) (map tref cs)) ++ stack) out) Q E s.
  Proof.
    intros HP. induction HP as [|c cs Hc HP IH]; intros n ks dn ms stack out K s f Q E HM Hn Hms Hnd HQ.
    - simpl in Hms. inversion Hms; subst. simpl. rewrite <-(app_nil_r out) at 1. by apply (HQ K); [|simpl|constructor|].
    - cbn [map concat] in Hms. apply Forall2_app_inv_l in Hms as (ms1 & ms2 & H1 & H2 & ->).
      cbn [map with_seq]. destruct (Nat.eqb_spec (fst (tref c)) q) as [En|En].
      + cbn [map app]. rewrite app_length, <-Nat.add_assoc.
        apply NoDup_cons in Hnd as [N1 N2]. apply NoDup_app in N2 as (N2 & N3 & N4).
        rewrite not_elem_of_app in N1. destruct N1 as [N1 N1'].
        eapply (Hc n); [done|exact HM|exact Hn| |exact H1|by apply NoDup_cons|].
        { cbn [n_children]. by rewrite lookup_app_r, Nat.sub_diag by lia. }
        intros K1 s1 HM1 Hn1 Hk1 Hf1. cbn [n_keys n_children] in Hn1.
        rewrite insert_app_r_alt, Nat.sub_diag in Hn1 by lia. cbn in Hn1.
        replace (S (length dn)) with (length (dn ++ [(q, length out)])) by (rewrite app_length; simpl; lia).
        pose proof (relabel_next q c (length out)) as Hnx. pose proof (relabel_tref q (length out) c En) as Htr.
        rewrite relabels_cons in HQ. destruct (relabel q (length out) c) as [c' j1]. simpl in Hnx, Hk1, Htr.
        pose proof (Forall2_length _ _ _ H1) as Hl1.
        assert (length (out ++ ms1) = j1) as Ej by (rewrite app_length; lia).
        eapply (IH n ks (dn ++ [(q, length out)]) ms2 stack (out ++ ms1) K1).
        * exact HM1.
        * by rewrite <-app_assoc.
        * eapply nrel_mono; [|exact H2]. intros m Hm. apply Hf1. rewrite not_elem_of_cons. split; [by intros ->|].
          intros Hx. by apply (N3 m).
        * by apply NoDup_cons.
        * rewrite Ej. intros K2 s2 HM2 Hn2 Hk2 Hf2. destruct (relabels q cs j1) as [cs' j2]. simpl in HQ, Hn2, Hk2.
          rewrite <-app_assoc. apply (HQ K2); [done| | |].
          -- rewrite Hn2, <-app_assoc. simpl. by rewrite Htr.
          -- apply Forall2_app; [|done]. eapply krel_mono; [|exact Hk1]. intros m Hm. apply Hf2.
             rewrite not_elem_of_cons. split; [by intros ->|]. intros Hx. by apply (N3 m).
          -- intros m Hm. rewrite not_elem_of_cons, not_elem_of_app in Hm. destruct Hm as (A1 & A2 & A3).
             rewrite Hf2, Hf1; [done|..]; by rewrite not_elem_of_cons.
      + rewrite newsubs_old in H1 by done. inversion H1; subst. simpl in Hnd.
        rewrite relabels_cons, (relabel_old _ _ c) in HQ by done.
        replace (S (length dn)) with (length (dn ++ [tref c])) by (rewrite app_length; simpl; lia).
        eapply (IH n ks (dn ++ [tref c]) ms2 stack out K); [exact HM|by rewrite <-app_assoc|exact H2|exact Hnd|].
        intros K2 s2 HM2 Hn2 Hk2 Hf2. destruct (relabels q cs (length out)) as [cs' j2]. simpl in HQ, Hn2, Hk2.
        apply (HQ K2); [done| | |done].
        * by rewrite Hn2, <-app_assoc.
        * by rewrite (newsubs_old _ c).
  Qed.

  Lemma reorder_tree t : ro_tree t.
  Proof.
    induction t as [r ks cs IH] using tree_ind'.
    intros n nd ci ms stack out K s f Q E Hq HM Hn Hci Hms Hnd HQ. cbn [tref] in *.
    rewrite newsubs_new in Hms by done. inversion Hms as [|? m ? ms' [Hm1 Hm2] Hms']; subst. cbn [tref] in Hm1.
    apply NoDup_cons in Hnd as [N1 N2]. apply not_elem_of_cons in N1 as [N0 N1].
    cbn [length Nat.add reorder_loop]. apply swp_bind. eapply m_node_get; [exact HM|exact Hn|]. cbn beta.
    apply swp_bind. eapply swp_unwrap; [exact Hci|]. apply swp_bind.
    eapply m_mod; [exact HM|exact Hn| |].
    { unfold on_children. rewrite Hci. cbn. unfold vec_set. apply lookup_lt_Some in Hci.
      apply Nat.ltb_lt in Hci as ->. cbn. reflexivity. }
    intros s1 HM1 _. apply swp_bind. eapply swp_unwrap; [exact Hm1|]. apply swp_bind.
    unfold take_children_with_seq. apply swp_bind.
    eapply m_node_get; [exact HM1|by rewrite lookup_insert_ne by done|]. apply swp_ret.
    cbn [node_of n_children tkids].
    eapply (ro_kids cs IH m ks [] ms' stack (out ++ [m])); [exact HM1|by rewrite lookup_insert_ne by done| |done|].
    { eapply nrel_mono; [|exact Hms']. intros m' Hm'. rewrite lookup_insert_ne; [done|]. by intros ->. }
    rewrite app_length, Nat.add_1_r. intros K2 s2 HM2 Hn2 Hk2 Hf2.
    rewrite relabel_Nd in HQ. rewrite Hq, Nat.eqb_refl in HQ. destruct (relabels q cs (S (length out))) as [cs' j2].
    rewrite <-app_assoc. cbn [fst] in *. rewrite newsubs_new in HQ by done.
    apply (HQ K2); [done| | |].
    - rewrite Hf2, lookup_insert, Hq; [done|]. by apply not_elem_of_cons.
    - constructor; [exact Hn2|exact Hk2].
    - intros m' Hm'. rewrite !not_elem_of_cons in Hm'. destruct Hm' as (A1 & A2 & A3).
      rewrite Hf2, lookup_insert_ne by (by rewrite ?not_elem_of_cons). done.
  Qed.

  Lemma m_reorder T ms K s (Q : list nid -> st -> Prop) (E : stop -> st -> Prop) :
    fst (tref T) = q -> snd (tref T) = (length nodes - 1)%nat -> MI M K s ->
    Forall2 (nrel K) (newsubs q T) ms -> NoDup ms -> (length ms <= S (length nodes))%nat ->
    (forall K' s', MI M K' s' -> Forall2 (krel K') (newsubs q (fst (relabel q 0 T))) ms -> Q ms s') ->
    swp (reorder_nodes q nodes) Q E s.
  Proof.
    destruct T as [r ks cs]. cbn [tref]. intros Hq Hr HM Hms Hnd Hlen HQ.
    rewrite newsubs_new in Hms by done. inversion Hms as [|? m ? ms' [Hm1 Hm2] Hms']; subst. cbn [tref] in Hm1.
    unfold reorder_nodes. apply swp_bind. eapply swp_unwrap.
    { rewrite last_lookup. replace (pred (length nodes)) with (length nodes - 1)%nat by lia. by rewrite <-Hr. }
    apply swp_bind. unfold take_children_with_seq. apply swp_bind. eapply m_node_get; [exact HM|exact Hm2|].
    apply swp_ret. cbn [node_of n_children tkids].
    rewrite <-(app_nil_r (map _ (with_seq _ _ _))).
    simpl in Hlen. replace (length nodes) with (length ms' + (length nodes - length ms'))%nat by lia.
    eapply (ro_kids cs (proj2 (Forall_forall _ _) (fun c _ => reorder_tree c)) m ks [] ms' [] [m]); [exact HM|exact Hm2|exact Hms'|done|].
    intros K2 s2 HM2 Hn2 Hk2 Hf2. rewrite relabel_Nd in HQ. rewrite Hq, Nat.eqb_refl in HQ. simpl in Hn2, Hk2.
    destruct (relabels q cs 1) as [cs' j2]. cbn [fst] in *. rewrite newsubs_new in HQ by done.
    destruct (length nodes - length ms')%nat; cbn [reorder_loop]; apply swp_ret; (apply (HQ K2); [done|]);
      constructor; done.
  Qed.

  Lemma m_read_levels us ms : forall K s (Q : list level -> st -> Prop) (E : stop -> st -> Prop),
    MI M K s -> Forall2 (krel K) us ms -> Q (map to_level (map node_of us)) s -> swp (read_levels ms) Q E s.
  Proof.
    revert ms. induction us as [|u us IH]; intros ms K s Q E HM Hf HQ; inversion Hf as [|? m ? ms' H1 H2]; subst.
    - by apply swp_ret.
    - cbn [read_levels]. apply swp_bind. eapply m_node_get; [exact HM|exact H1|]. cbn beta.
      apply swp_bind. eapply IH; [exact HM|exact H2|]. by apply swp_ret.
  Qed.
End reorder.

(** ** The renumbered tree *)
Fixpoint oldrefs (q : nat) (t : tree) : list ref :=
  match t with Nd r _ cs => if (fst r =? q)%nat then concat (map (oldrefs q) cs) else refs t end.

Lemma oldrefs_new q r ks cs : fst r = q -> oldrefs q (Nd r ks cs) = concat (map (oldrefs q) cs).
Proof. intros <-. simpl. by rewrite Nat.eqb_refl. Qed.
Lemma oldrefs_old q t : fst (tref t) <> q -> oldrefs q t = refs t.
Proof. destruct t as [r ks cs]. simpl. intros H. by apply Nat.eqb_neq in H as ->. Qed.

Lemma refs_split q t : refs t ≡ₚ oldrefs q t ++ map tref (newsubs q t).
Proof.
  induction t as [r ks cs IH] using tree_ind'. destruct (decide (fst r = q)) as [E|E].
  - rewrite oldrefs_new, newsubs_new, refs_Nd by done. cbn [map tref].
    assert (concat (map refs cs) ≡ₚ concat (map (oldrefs q) cs) ++ map tref (concat (map (newsubs q) cs))) as ->.
    { clear E. induction IH as [|c cs Hc _ IHcs]; [done|]. cbn [map concat]. rewrite IHcs, Hc, map_app. solve_Permutation. }
    solve_Permutation.
  - rewrite oldrefs_old, newsubs_old by done. simpl. by rewrite app_nil_r.
Qed.

Lemma newsubs_subs q t u : u ∈ newsubs q t -> u ∈ subs t /\ fst (tref u) = q.
Proof.
  induction t as [r ks cs IH] using tree_ind'. destruct (decide (fst r = q)) as [E|E].
  - rewrite newsubs_new by done. intros [->|Hu]%elem_of_cons; [split; [apply subs_self|done]|].
    apply elem_of_list_In, in_concat in Hu as (l & Hl & Hu). apply in_map_iff in Hl as (c & <- & Hc).
    rewrite Forall_forall in IH. apply elem_of_list_In in Hc, Hu. destruct (IH c Hc Hu). split; [|done].
    by eapply subs_kid.
  - rewrite newsubs_old by done. by intros ?%elem_of_nil.
Qed.

Lemma oldrefs_sub q t r : r ∈ oldrefs q t -> exists w, w ∈ subs t /\ fst (tref w) <> q /\ r ∈ refs w.
Proof.
  induction t as [r0 ks cs IH] using tree_ind'. destruct (decide (fst r0 = q)) as [E|E].
  - rewrite oldrefs_new by done. intros Hu.
    apply elem_of_list_In, in_concat in Hu as (l & Hl & Hu). apply in_map_iff in Hl as (c & <- & Hc).
    rewrite Forall_forall in IH. apply elem_of_list_In in Hc, Hu. destruct (IH c Hc Hu) as (w & H1 & H2 & H3).
    exists w. split_and!; try done. by eapply subs_kid.
  - rewrite oldrefs_old by done. exists (Nd r0 ks cs). split_and!; [apply subs_self|done|done].
Qed.

Record relabeled (q i : nat) (t t' : tree) : Prop := {
  rl_flat : flat t' = flat t;
  rl_keys : tkeys t' = tkeys t;
  rl_shape : forall h, shape h t -> shape h t';
  rl_news : map tref (newsubs q t') = news q i (i + length (newsubs q t));
  rl_olds : oldrefs q t' = oldrefs q t;
  rl_subs : forall u, u ∈ subs t' -> u ∈ newsubs q t' \/ exists w, w ∈ subs t /\ fst (tref w) <> q /\ u ∈ subs w }.

Lemma relabel_ok q t : forall i, relabeled q i t (fst (relabel q i t)).
Proof.
  induction t as [r ks cs IH] using tree_ind'. intros i. destruct (decide (fst r = q)) as [E|E].
  - rewrite relabel_Nd. rewrite E, Nat.eqb_refl.
    assert (forall j, let cs' := fst (relabels q cs j) in
      map flat cs' = map flat cs /\ Forall2 (fun c c' => tkeys c' = tkeys c /\ forall h, shape h c -> shape h c') cs cs' /\
      map tref (concat (map (newsubs q) cs')) = news q j (j + length (concat (map (newsubs q) cs))) /\
      concat (map (oldrefs q) cs') = concat (map (oldrefs q) cs) /\
      (forall u c', c' ∈ cs' -> u ∈ subs c' -> u ∈ concat (map (newsubs q) cs') \/
         exists w c, c ∈ cs /\ w ∈ subs c /\ fst (tref w) <> q /\ u ∈ subs w)) as HL.
    { clear E. induction IH as [|c cs Hc _ IHcs]; intros j.
      - simpl. rewrite Nat.add_0_r, news_nil. split_and!; try done. by intros ? ? ?%elem_of_nil.
      - rewrite relabels_cons. pose proof (relabel_next q c j) as Hnx. specialize (Hc j).
        destruct (relabel q j c) as [c' j1]. specialize (IHcs j1). destruct (relabels q cs j1) as [cs' j2].
        cbn [fst snd] in *. subst j1. cbv zeta in *. destruct IHcs as (I1 & I2 & I3 & I4 & I5).
        destruct Hc as [A1 A2 A3 A4 A5 A6]. cbn [map concat]. split_and!.
        + by rewrite A1, I1.
        + by constructor.
        + rewrite map_app, A4, I3, app_length, Nat.add_assoc. symmetry. apply news_app. lia.
        + by rewrite A5, I4.
        + intros u d [->|Hd]%elem_of_cons Hu.
          * destruct (A6 u Hu) as [?|(w & W1 & W2 & W3)]; [left; apply elem_of_app; by left|].
            right. exists w, c. split_and!; try done. left.
          * destruct (I5 u d Hd Hu) as [?|(w & c0 & W1 & W2 & W3 & W4)]; [left; apply elem_of_app; by right|].
            right. exists w, c0. split_and!; try done. by right. }
    specialize (HL (S i)). destruct (relabels q cs (S i)) as [cs' j2]. cbv zeta in HL. cbn [fst] in *.
    destruct HL as (H1 & H2 & H3 & H4 & H5). split.
    + simpl. by rewrite H1.
    + done.
    + intros [|h]; simpl.
      * intros [-> ?]. inversion H2; subst. done.
      * intros (L1 & L2 & L3). rewrite <-(Forall2_length _ _ _ H2). split_and!; [done|done|].
        clear -L3 H2. induction H2 as [|c c' cs cs' [A1 A2] H2 IH]; [constructor|].
        apply Forall_cons in L3 as [[B1 B2] B3]. constructor; [|by apply IH]. rewrite A1. split; [done|by apply A2].
    + rewrite !newsubs_new by done. cbn [map tref length]. rewrite H3. rewrite (news_S q i) by lia. f_equal. f_equal. lia.
    + by rewrite !oldrefs_new by done.
    + intros u Hu. apply elem_of_subs in Hu as [->|(c' & Hc' & Hu)].
      * left. rewrite newsubs_new by done. left.
      * destruct (H5 u c' Hc' Hu) as [?|(w & c & W1 & W2 & W3 & W4)].
        { left. rewrite newsubs_new by done. by right. }
        right. exists w. split_and!; try done. by eapply subs_kid.
  - rewrite relabel_old by done. cbn [fst]. split; try done.
    + rewrite newsubs_old by done. simpl. by rewrite Nat.add_0_r, news_nil.
    + intros u Hu. right. exists (Nd r ks cs). split_and!; [apply subs_self|done|done].
Qed.

Lemma perm_split {A} (P : A -> Prop) (a b c d : list A) :
  a ++ b ≡ₚ c ++ d -> Forall P a -> Forall P c -> Forall (fun x => ~ P x) b -> Forall (fun x => ~ P x) d ->
  (forall x, Decision (P x)) -> a ≡ₚ c /\ b ≡ₚ d.
Proof.
  intros HP Ha Hc Hb Hd HD.
  assert (forall l, Forall P l -> filter P l = l /\ filter (fun x => ~ P x) l = []) as H1.
  { intros l Hl. induction Hl as [|x l Hx Hl [IH1 IH2]]; [done|]. rewrite !filter_cons, IH1, IH2.
    rewrite decide_True by done. rewrite decide_False by tauto. done. }
  assert (forall l, Forall (fun x => ~ P x) l -> filter P l = [] /\ filter (fun x => ~ P x) l = l) as H2.
  { intros l Hl. induction Hl as [|x l Hx Hl [IH1 IH2]]; [done|]. rewrite !filter_cons, IH1, IH2.
    rewrite decide_False by done. rewrite decide_True by tauto. done. }
  destruct (H1 a Ha) as [A1 A2], (H1 c Hc) as [C1 C2], (H2 b Hb) as [B1 B2], (H2 d Hd) as [D1 D2]. split.
  - assert (filter P (a ++ b) ≡ₚ filter P (c ++ d)) as H by (by rewrite HP).
    rewrite !filter_app, A1, B1, C1, D1, !app_nil_r in H. done.
  - assert (filter (fun x => ~ P x) (a ++ b) ≡ₚ filter (fun x => ~ P x) (c ++ d)) as H by (by rewrite HP).
    rewrite !filter_app, A2, B2, C2, D2 in H. done.
Qed.

(** ** The commit *)
Definition chain_small (C : list bytes) : Prop := (N.of_nat (length C) < 2 ^ 50)%N.

(** The core has been extended by the block of a change. *)
Record committed (C : list bytes) (RS : list ref) (T : tree) (key : bytes) (value : option bytes) (h len : nat) (F : list nat) (s' : st) (T' : tree) : Prop := {
  cm_core : core s' = C ++ [encode_block (map to_level (map node_of (newsubs (length C) T'))) key value];
  cm_hwf : hwf s';
  cm_wft : wft (core s') (length C) h T';
  cm_coh : coh s' T';
  cm_flat : flat T' = F;
  cm_blk : blk (core s') (length C) = Some (Block (map node_of (newsubs (length C) T')) key value);
  cm_news : map tref (newsubs (length C) T') = news (length C) 0 len;
  cm_rel : T' = fst (relabel (length C) 0 T);
  cm_refs : forall r, r ∈ refs T' -> fst r = length C \/ r ∈ RS }.

Lemma blk_snoc C raw : blk (C ++ [raw]) (length C) = match decode_block raw with DOk b => Some b | _ => None end.
Proof. unfold blk. by rewrite lookup_app_r, Nat.sub_diag by lia. Qed.

Lemma hwf_append s raw : hwf s -> hwf (set_core s (core s ++ [raw])).
Proof.
  intros [H1 H2]. split; [|done]. intros k e He. eapply entry_ok_mono; [| |by apply H1]; simpl; [|lia].
  by apply prefix_app_r.
Qed.
Lemma hwf_oracle s o : hwf s -> hwf (set_oracle s o).
Proof. done. Qed.

Section commit.
  Context (C : list bytes) (RS : list ref) (o : list fault).
  Local Notation q := (length C).

  Lemma m_commit M key value T len h F olds s ch K (Q : unit -> st -> Prop) (E : stop -> st -> Prop) :
    Done C RS o M key value T len s ch K -> rshape h T -> flat T = F -> tref T = (q, len - 1) -> (0 < len)%nat ->
    refs T ≡ₚ olds ++ news q 0 len -> NoDup olds ->
    (forall r, r ∈ olds -> r ∈ RS /\ r ∉ M /\ (1 <= fst r < q)%nat /\ (N.of_nat (snd r) < 2 ^ 52)%N) ->
    (forall k, k ∈ F -> k = q \/ (1 <= k < q)%nat /\ is_Some (blk C k)) -> (1 <= q)%nat ->
    (forall raw b, blk (C ++ [raw]) q = Some b -> b_key b = key -> ksorted (kd (C ++ [raw])) F) ->
    chain_small C -> (N.of_nat len < 2 ^ 52)%N -> u64 (blen key) -> match value with None => True | Some x => u64 (blen x) end ->
    (forall s' T', committed C RS T key value h len F s' T' -> oracle s' `suffix_of` o -> Q tt s') ->
    (forall s', core s' = C -> hwf s' -> losing o -> E (SErr EHypercore) s') ->
    (forall s' T', committed C RS T key value h len F s' T' -> losing o -> E (SErr EHypercore) s') ->
    swp (add_changes ch) Q E s.
  Proof.
    intros [HM Hnd Hlen Hseq Hkey Hval HR] Hsh HF HT Hpos Hrefs Hno Holds Hkeys Hq1 Hsort Hsm Hl52 Hku Hvu HQ HE1 HE2.
    unfold add_changes. rewrite Hseq, Hkey, Hval.
    assert (forall u, u ∈ subs T -> fst (tref u) <> q -> Rold C u) as Hold.
    { intros u Hu Hne. destruct (HR u Hu) as [[Hn _]|Ho]; [done|done]. }
    assert (forall u, u ∈ subs T -> fst (tref u) = q -> Rnew K (ch_nodes ch) u) as Hnew.
    { intros u Hu He. destruct (HR u Hu) as [[_ Hn]|[_ Ho]]; [done|]. rewrite Forall_forall in Ho.
      specialize (Ho (tref u)). rewrite refs_kids in Ho. specialize (Ho (elem_of_list_here _ _)). lia. }
    assert (oldrefs q T ≡ₚ olds /\ map tref (newsubs q T) ≡ₚ news q 0 len) as [Ho1 Ho2].
    { apply (perm_split (fun r : ref => fst r <> q)).
      - by rewrite <-(refs_split q T).
      - apply Forall_forall. intros r (w & W1 & W2 & W3)%oldrefs_sub.
        destruct (Hold w W1 W2) as [_ Hx]. rewrite Forall_forall in Hx. specialize (Hx r W3). simpl in *. lia.
      - apply Forall_forall. intros r Hr. destruct (Holds r Hr) as (_ & _ & ? & _). simpl. lia.
      - apply Forall_forall. intros r (u & -> & Hu)%elem_of_list_fmap. destruct (newsubs_subs _ _ _ Hu). tauto.
      - apply Forall_forall. intros r Hr%elem_of_news. simpl. tauto.
      - intros x. apply _. }
    assert (exists ms, Forall2 (nrel (ch_nodes ch) K) (newsubs q T) ms) as [ms Hms].
    { assert (forall us, (forall u, u ∈ us -> Rnew K (ch_nodes ch) u) -> exists ms, Forall2 (nrel (ch_nodes ch) K) us ms) as H.
      { intros us. induction us as [|u us IH]; intros Hus; [by exists []|].
        destruct IH as [ms Hms]; [intros w Hw; apply Hus; by right|].
        destruct (Hus u) as (m & Hm1 & Hm2); [left|]. exists (m :: ms). by constructor. }
      apply H. intros u Hu. destruct (newsubs_subs _ _ _ Hu). by apply Hnew. }
    assert (NoDup ms) as Hnms.
    { assert (NoDup (map tref (newsubs q T))) as Hn by (rewrite Ho2; apply NoDup_news).
      assert (forall u, u ∈ newsubs q T -> fst (tref u) = q) as Hf. { intros u Hu. by apply newsubs_subs in Hu as [_ ?]. }
      clear -Hms Hn Hf Hnd. revert Hn Hf. generalize (newsubs q T) Hms. clear Hms. intros us Hms.
      induction Hms as [|u m us ms [Hu _] Hms IH]; intros Hn Hf; [constructor|].
      cbn [map] in Hn. apply NoDup_cons in Hn as [N1 N2]. constructor; [|apply IH; [done|intros; apply Hf; by right]].
      intros Hm. apply N1. apply elem_of_list_lookup in Hm as [i Hi].
      destruct (Forall2_lookup_r _ _ _ _ _ Hms Hi) as (u' & Hu' & Hn' & _).
      assert (snd (tref u) = snd (tref u')) as Es by exact (NoDup_lookup _ _ _ _ Hnd Hu Hn').
      assert (tref u = tref u') as ->.
      { pose proof (Hf u (elem_of_list_here _ _)). pose proof (Hf u' (elem_of_list_further _ _ _ (elem_of_list_lookup_2 _ _ _ Hu'))).
        destruct (tref u), (tref u'). simpl in *. congruence. }
      apply elem_of_list_fmap. exists u'. split; [done|by eapply elem_of_list_lookup_2]. }
    assert (length (newsubs q T) = len) as Hlns.
    { rewrite <-(map_length tref), Ho2. unfold news. rewrite map_length, seq_length. lia. }
    apply swp_bind.
    eapply (m_reorder C RS o M (ch_nodes ch) T ms K s); [by rewrite HT|rewrite HT; simpl; lia|exact HM|exact Hms|exact Hnms| |].
    { rewrite <-(Forall2_length _ _ _ Hms). lia. }
    intros K1 s1 HM1 Hk1. apply swp_bind. eapply m_read_levels; [exact HM1|exact Hk1|].
    pose proof (relabel_ok q T 0) as HL.
    assert (tref (fst (relabel q 0 T)) = (q, 0)) as HT'. { apply relabel_tref. by rewrite HT. }
    set (T' := fst (relabel q 0 T)) in *. destruct HL as [R1 R2 R3 R4 R5 R6]. rewrite Hlns in R4. simpl in R4.
    set (raw := encode_block (map to_level (map node_of (newsubs q T'))) key value).
    assert (rshape h T') as Hsh'. { destruct Hsh as [A1 A2]. split; [by apply R3|by rewrite R2]. }
    assert (refs T' ≡ₚ olds ++ news q 0 len) as Hrefs'.
    { rewrite (refs_split q T'), R5, R4, Ho1. done. }
    assert (forall r, r ∈ refs T' -> (1 <= fst r <= q)%nat /\ (N.of_nat (snd r) < 2 ^ 52)%N) as Hrng.
    { intros r Hr. rewrite Hrefs', elem_of_app in Hr. destruct Hr as [Hr|Hr].
      - destruct (Holds r Hr) as (_ & _ & ? & ?). split; [lia|done].
      - apply elem_of_news in Hr. split; lia. }
    assert (block_ok (Block (map node_of (newsubs q T')) key value)) as Hbok.
    { assert (forall u, u ∈ newsubs q T' -> length (tkeys u) <= 8 /\ length (tkids u) <= 9)%nat as Hsz.
      { intros u Hu. apply newsubs_subs in Hu as [Hu _]. destruct Hsh' as [Hs _].
        destruct (shape_sub _ _ _ Hs Hu) as (h' & _ & Hu'). pose proof (shape_max _ _ Hu'). split; [done|].
        destruct h'; [rewrite (shape_leaf u) by done; simpl; lia|]. apply shape_kids_length in Hu'. lia. }
      split_and!; cbn [b_nodes b_key b_value]; [| |done|done].
      - apply Forall_map, Forall_forall. intros u Hu. split; cbn [node_of n_keys n_children].
        + apply Forall_forall. intros k Hk.
          assert (k ∈ F) as Hk'.
          { rewrite <-HF, <-R1. destruct Hsh' as [Hs _]. apply (elem_of_flat_sub h); [done|]. exists u. split; [|done].
            by apply newsubs_subs in Hu as [? _]. }
          unfold chain_small in Hsm. unfold u64. destruct (Hkeys k Hk') as [->|[? _]]; lia.
        + apply Forall_forall. intros r (c & -> & Hc)%elem_of_list_fmap.
          assert (tref c ∈ refs T') as Hr.
          { apply elem_of_refs. exists c. split; [|done]. apply newsubs_subs in Hu as [Hu _].
            eapply subs_trans; [exact Hu|]. eapply subs_kid; [exact Hc|apply subs_self]. }
          destruct (Hrng _ Hr). unfold chain_small in Hsm. unfold u64. lia.
      - assert (length (enc_yolo (map to_level (map node_of (newsubs q T')))) <= 320 * len)%nat as Hy.
        { replace len with (length (map node_of (newsubs q T'))).
          - apply enc_yolo_length; [exact 0|]. apply Forall_map, Forall_forall. intros u Hu. cbn [node_of n_keys n_children].
            rewrite map_length. by apply Hsz.
          - rewrite map_length, <-(map_length tref), R4. unfold news. rewrite map_length, seq_length. lia. }
        unfold blen, u64. lia. }
    assert (blk (C ++ [raw]) q = Some (Block (map node_of (newsubs q T')) key value)) as Hblk.
    { rewrite blk_snoc. unfold raw. by rewrite decode_encode_block. }
    assert (forall o', oracle (set_oracle (set_core s1 (C ++ [raw])) o') = o') as _ by done.
    assert (forall o', committed C RS T key value h len F (set_oracle (set_core s1 (C ++ [raw])) o') T') as Hcm.
    { intros o'. split; cbn [core set_oracle set_core]; try done.
      - apply hwf_oracle. rewrite <-(mi_core _ _ _ _ _ _ HM1). apply hwf_append. apply HM1.
      - split; try done.
        + intros u Hu. destruct (R6 u Hu) as [Hn|(w & W1 & W2 & W3)].
          * pose proof (elem_of_list_lookup_1 _ _ Hn) as [i Hi].
            assert (map tref (newsubs q T') !! i = Some (tref u)) as Hti.
            { change (map tref ?l) with (tref <$> l). by rewrite list_lookup_fmap, Hi. }
            rewrite R4 in Hti. unfold news in Hti. apply list_lookup_fmap_Some in Hti as (j & Hj1 & Hj2).
            apply lookup_seq in Hj1 as [-> _]. simpl in Hj2. rewrite Hj2. unfold cnode. cbn [fst snd].
            rewrite Hblk. cbn [b_nodes]. change (map node_of ?l) with (node_of <$> l). by rewrite list_lookup_fmap, Hi.
          * assert (u ∈ subs T) as Hu' by (by eapply subs_trans).
            destruct (Hold w W1 W2) as [_ Hw]. rewrite Forall_forall in Hw.
            assert (fst (tref u) < q)%nat as Hlt. { apply (Hw (tref u)). apply elem_of_refs. by exists u. }
            destruct (Hold u Hu' ltac:(lia)) as [Hcu _]. by rewrite cnode_app_l.
        + intros r Hr. by apply Hrng.
        + intros r Hr. by apply Hrng.
        + rewrite Hrefs'. apply NoDup_app. split_and!; [done| |apply NoDup_news].
          intros r H1 H2%elem_of_news. destruct (Holds r H1) as (_ & _ & ? & _). lia.
        + intros k Hk. rewrite R1, HF in Hk. destruct (Hkeys k Hk) as [->|[? [b Hb]]].
          * split; [lia|]. rewrite Hblk. by eexists.
          * split; [lia|]. rewrite blk_app_l by lia. by eexists.
        + rewrite R1, HF. by eapply Hsort.
      - intros r Hr. cbn [core set_oracle set_core]. rewrite Hrefs', elem_of_app in Hr. destruct Hr as [Hr|Hr].
        + destruct (Holds r Hr) as (Ha & Hb & Hc & _). pose proof (mi_coh _ _ _ _ _ _ HM1 r Ha Hb) as Hh.
          rewrite cnode_app_l by lia. unfold hnode in *. cbn [cache heap core set_oracle set_core] in *.
          destruct (cache s1 !! fst r); [done|]. rewrite cnode_app_l by lia. done.
        + apply elem_of_news in Hr as [Hr _]. unfold hnode. cbn [cache heap core set_oracle set_core].
          destruct (cache s1 !! fst r) as [e|] eqn:Ec; [|done].
          apply (proj1 (mi_wf _ _ _ _ _ _ HM1)) in Ec as (b & Hb & _). apply blk_lt in Hb.
          rewrite (mi_core _ _ _ _ _ _ HM1) in Hb. lia.
      - by rewrite R1.
      - intros r Hr. rewrite Hrefs', elem_of_app in Hr. destruct Hr as [Hr|Hr].
        + right. by apply Holds.
        + left. by apply elem_of_news in Hr as [? _]. }
    assert (oracle s1 `suffix_of` o) as Hsuf by apply HM1.
    unfold blocks_append. fold raw. cbn [pbind]. intros s2 <-. split; [done|].
    unfold exec_append. rewrite (mi_core _ _ _ _ _ _ HM1).
    destruct (oracle s1) as [|f o'] eqn:Eo.
    - cbn [pbind]. intros s2 <-. apply (HQ _ T'); [|simpl; by rewrite Eo].
      specialize (Hcm []). replace (set_core s1 (C ++ [raw])) with (set_oracle (set_core s1 (C ++ [raw])) []); [done|].
      destruct s1. simpl in *. by rewrite Eo.
    - assert (o' `suffix_of` o) as Hs'. { etrans; [|exact Hsuf]. by apply suffix_cons_r. }
      destruct f; cbn [pbind]; intros s2 <-.
      + apply (HQ _ T'); [apply Hcm|done].
      + apply HE1; [apply HM1|apply HM1|]. eapply losing_suffix; [exact Hsuf|]. left. by left.
      + apply (HQ _ T'); [apply Hcm|done].
      + apply (HE2 _ T'); [apply Hcm|]. eapply losing_suffix; [exact Hsuf|]. left. by right.
      + apply (HQ _ T'); [apply Hcm|done].
  Qed.
End commit.
