(** Paths from a node up to the root, as contexts with a hole. *)
From Coq.Strings Require Import Byte.
From Coq Require Import Lia Sorting.Sorted.
From stdpp Require Import prelude gmap.
From Verif Require Import Bytes Codec Model Order Store Tree Iter Read.

Notation zipper := (list (tree * nat)).

(** What is in order left and right of the hole. *)
Fixpoint ctx_l (tp : zipper) : list nat :=
  match tp with
  | [] => []
  | (u, i) :: tp' => ctx_l tp' ++ fl (map flat (take i (tkids u))) (take i (tkeys u))
  end.
Fixpoint ctx_r (tp : zipper) : list nat :=
  match tp with
  | [] => []
  | (u, i) :: tp' => fr (drop i (tkeys u)) (map flat (drop (S i) (tkids u))) ++ ctx_r tp'
  end.

(** References of the nodes on the path, and of everything hanging off it. *)
Definition prefs (tp : zipper) : list ref := map (fun x => tref (fst x)) tp.
Fixpoint sibs (tp : zipper) : list ref :=
  match tp with
  | [] => []
  | (u, i) :: tp' => concat (map refs (take i (tkids u))) ++ concat (map refs (drop (S i) (tkids u))) ++ sibs tp'
  end.

(** The hole is where [t] sits in [T]. *)
Fixpoint chain (t : tree) (tp : zipper) (T : tree) : Prop :=
  match tp with
  | [] => t = T
  | (u, i) :: tp' => tkids u !! i = Some t /\ chain u tp' T
  end.

Definition okkid (g : nat) (c : tree) : Prop := (4 <= length (tkeys c))%nat /\ shape g c.

(** Everything around a hole of height [g] is in shape; the topmost node has at
    least [lo] keys. *)
Fixpoint zok (g lo : nat) (tp : zipper) : Prop :=
  match tp with
  | [] => True
  | (u, i) :: tp' =>
      length (tkids u) = S (length (tkeys u)) /\ (length (tkeys u) <= 8)%nat /\
      ((match tp' with [] => lo | _ => 4 end) <= length (tkeys u))%nat /\ (i <= length (tkeys u))%nat /\
      Forall (okkid g) (take i (tkids u)) /\ Forall (okkid g) (drop (S i) (tkids u)) /\
      zok (S g) lo tp'
  end.

Definition rshape (h : nat) (t : tree) : Prop := shape h t /\ (h = 0 \/ tkeys t <> []).

Lemma ctx_l_app a b : ctx_l (a ++ b) = ctx_l b ++ ctx_l a.
Proof. induction a as [|[u i] a IH]; simpl; [by rewrite app_nil_r|]. by rewrite IH, app_assoc. Qed.
Lemma ctx_r_app a b : ctx_r (a ++ b) = ctx_r a ++ ctx_r b.
Proof. induction a as [|[u i] a IH]; simpl; [done|]. by rewrite IH, app_assoc. Qed.
Lemma sibs_app a b : sibs (a ++ b) = sibs a ++ sibs b.
Proof. induction a as [|[u i] a IH]; simpl; [done|]. by rewrite IH, !app_assoc. Qed.
Lemma chain_app t a b T : chain t (a ++ b) T <-> exists u, chain t a u /\ chain u b T.
Proof.
  revert t. induction a as [|[u i] a IH]; intros t; simpl.
  - split; [eauto|]. by intros (u & -> & H).
  - rewrite IH. naive_solver.
Qed.
Lemma zok_app g lo a b :
  zok g lo (a ++ b) <-> zok g (match b with [] => lo | _ => 4 end) a /\ zok (length a + g) lo b.
Proof.
  revert g. induction a as [|[u i] a IH]; intros g; simpl; [tauto|].
  rewrite IH. replace (length a + S g)%nat with (S (length a + g)) by lia.
  destruct a as [|x a], b as [|y b]; simpl; tauto.
Qed.

Lemma kid_split {A} (l : list A) i x : l !! i = Some x -> l = take i l ++ x :: drop (S i) l.
Proof. intros H. symmetry. by apply take_drop_middle. Qed.

Lemma chain_flat t tp T g lo : chain t tp T -> zok g lo tp -> flat T = ctx_l tp ++ flat t ++ ctx_r tp.
Proof.
  revert t g. induction tp as [|[u i] tp IH]; intros t g; simpl.
  - intros ->. by rewrite app_nil_r.
  - intros [Hi Hc] (Hlen & _ & _ & Hle & _ & _ & Hz). rewrite (IH _ _ Hc Hz). destruct u as [r ks cs]. simpl in *.
    rewrite (kid_split _ _ _ Hi) at 1. rewrite <-(take_drop i ks) at 1.
    rewrite map_app. simpl. rewrite inter_mid.
    + by rewrite <-!app_assoc.
    + rewrite map_length, !take_length. apply lookup_lt_Some in Hi. lia.
    + rewrite map_length, !drop_length. lia.
Qed.

Lemma concat_map_split {B} (f : tree -> list B) (l : list tree) i x :
  l !! i = Some x ->
  concat (map f l) ≡ₚ f x ++ concat (map f (take i l)) ++ concat (map f (drop (S i) l)).
Proof.
  intros H. rewrite (kid_split _ _ _ H) at 1. rewrite map_app, concat_app. simpl.
  solve_Permutation.
Qed.

Lemma refs_kids t : refs t = tref t :: concat (map refs (tkids t)).
Proof. destruct t. by rewrite refs_Nd. Qed.

Lemma chain_refs t tp T : chain t tp T -> refs T ≡ₚ refs t ++ prefs tp ++ sibs tp.
Proof.
  revert t. induction tp as [|[u i] tp IH]; intros t; simpl.
  - intros ->. by rewrite app_nil_r.
  - intros [Hi Hc]. rewrite (IH _ Hc), refs_kids, (concat_map_split refs _ _ _ Hi).
    solve_Permutation.
Qed.

Lemma chain_subs t tp T : chain t tp T -> t ∈ subs T.
Proof.
  revert t. induction tp as [|[u i] tp IH]; intros t; simpl.
  - intros ->. apply subs_self.
  - intros [Hi Hc]. eapply subs_trans; [by apply IH|]. eapply subs_kid; [|apply subs_self].
    by eapply elem_of_list_lookup_2.
Qed.
Lemma chain_path_subs t tp T u i : chain t tp T -> (u, i) ∈ tp -> u ∈ subs T.
Proof.
  revert t. induction tp as [|[v j] tp IH]; intros t; simpl; [by intros _ ?%elem_of_nil|].
  intros [Hi Hc] [[= -> ->]|Hu]%elem_of_cons; [by eapply chain_subs|]. by eapply IH.
Qed.

(** The path of a descent. *)
Definition desc_facts (D : nat -> kvdata) (key : limit) (m : option nat) (b : tree) (i : nat) (tp : zipper) : Prop :=
  match m with
  | Some q => tkeys b !! i = Some q /\ limit_cmp key (keyof D q) = Eq
  | None => tkids b = [] /\ (i <= length (tkeys b))%nat /\
      (forall q, q ∈ ctx_l tp ++ take i (tkeys b) -> limit_cmp key (keyof D q) = Gt) /\
      (forall q, q ∈ drop i (tkeys b) ++ ctx_r tp -> limit_cmp key (keyof D q) = Lt)
  end.

Lemma shape_zok_frame h u i : shape (S h) u -> (i <= length (tkeys u))%nat ->
  length (tkids u) = S (length (tkeys u)) /\ (length (tkeys u) <= 8)%nat /\
  Forall (okkid h) (take i (tkids u)) /\ Forall (okkid h) (drop (S i) (tkids u)).
Proof.
  destruct u as [r ks cs]. simpl. intros (H1 & H2 & H3) Hi. split_and!; [done|done| |].
  - by apply Forall_take.
  - by apply Forall_drop.
Qed.

Lemma lim_fl D key u h i :
  shape (S h) u -> ksorted D (flat u) -> idx_ok D key (tkeys u) None i ->
  (forall q, q ∈ fl (map flat (take i (tkids u))) (take i (tkeys u)) -> limit_cmp key (keyof D q) = Gt) /\
  (forall q, q ∈ fr (drop i (tkeys u)) (map flat (drop (S i) (tkids u))) -> limit_cmp key (keyof D q) = Lt).
Proof.
  intros Hs Hsort (Hi & Hlt & Hge).
  pose proof (fun i j x y => segl_order D u (S h) i j x y Hs Hsort) as Hord.
  pose proof (shape_kids_length _ _ Hs) as Hlen.
  assert (forall j q, tkeys u !! j = Some q -> (q, u) ∈ segl u (2 * j + 1)) as Hkin.
  { intros j q Hq. rewrite segl_odd, Hq. left. }
  assert (forall j c q, tkids u !! j = Some c -> q ∈ flat c -> exists v, (q, v) ∈ segl u (2 * j)) as Hcin.
  { intros j c q Hc Hq. rewrite segl_even, Hc. rewrite <-map_fst_flatn in Hq.
    apply elem_of_list_fmap in Hq as ([q' v] & -> & Hq). eauto. }
  split; intros q Hq.
  - unfold fl in Hq. apply elem_of_list_In, in_concat in Hq as (l & Hl & Hq).
    apply elem_of_list_In, elem_of_lookup_zip_with in Hl as (j & c & k & -> & Hc & Hk).
    apply elem_of_list_In in Hq. rewrite list_lookup_fmap in Hc.
    destruct (take i (tkids u) !! j) as [c'|] eqn:Hc'; [|done]. injection Hc as <-.
    apply lookup_take_Some in Hk as [Hk Hji]. apply lookup_take_Some in Hc' as [Hc' _].
    specialize (Hlt j k Hji Hk).
    apply elem_of_app in Hq as [Hq|Hq%elem_of_list_singleton]; [|by subst].
    destruct (Hcin _ _ _ Hc' Hq) as [v Hv].
    eapply limit_cmp_mono_gt; [|apply (Hord (2 * j)%nat (2 * j + 1)%nat (q, v) (k, u)); [lia|done|by apply Hkin]].
    unfold nkey. simpl. by rewrite Hlt.
  - unfold fr in Hq. apply elem_of_list_In, in_concat in Hq as (l & Hl & Hq).
    apply elem_of_list_In, elem_of_lookup_zip_with in Hl as (j & k & c & -> & Hk & Hc).
    apply elem_of_list_In in Hq. rewrite list_lookup_fmap in Hc.
    destruct (drop (S i) (tkids u) !! j) as [c'|] eqn:Hc'; [|done]. injection Hc as <-.
    rewrite lookup_drop in Hk. rewrite lookup_drop in Hc'. specialize (Hge (i + j)%nat k ltac:(lia) Hk).
    apply elem_of_cons in Hq as [->|Hq]; [done|].
    destruct (Hcin _ _ _ Hc' Hq) as [v Hv].
    eapply limit_cmp_mono_lt; [|apply (Hord (2 * (i + j) + 1)%nat (2 * (S i + j))%nat (k, u) (q, v)); [lia|by apply Hkin|done]].
    unfold nkey. simpl. by rewrite Hge.
Qed.

Lemma desc_zip D key T m p h lo :
  desc D key T m p -> shape h T -> (h = 0 \/ lo <= length (tkeys T))%nat -> ksorted D (flat T) ->
  exists b i tp g, p = (b, i) :: tp /\ chain b tp T /\ (length tp + g = h)%nat /\
    zok g lo tp /\ shape g b /\ (tp <> [] -> 4 <= length (tkeys b))%nat /\
    desc_facts D key m b i tp.
Proof.
  intros Hd. revert h lo. induction Hd as [t q i Hi|t i Hi Hl|t i c m p Hi Hc Hd IH]; intros h lo Hs Hlo Hsort.
  - exists t, i, [], h. split_and!; try done.
  - exists t, i, [], h. split_and!; try done. destruct Hi as (Hi & Hlt & Hge).
    split_and!; [done|done| |].
    + intros q Hq. simpl in Hq. apply elem_of_list_lookup in Hq as [j Hj].
      apply lookup_take_Some in Hj as [Hj ?]. by eapply Hlt.
    + intros q Hq. simpl in Hq. rewrite app_nil_r in Hq. apply elem_of_list_lookup in Hq as [j Hj].
      rewrite lookup_drop in Hj. eapply Hge; [|done]. lia.
  - destruct h as [|h]; [rewrite (shape_leaf _ Hs), lookup_nil in Hc; done|].
    assert (c ∈ tkids t) as Hcin by (by eapply elem_of_list_lookup_2).
    destruct (shape_kids _ _ _ Hs Hcin) as [H4 Hsc].
    destruct (IH h 4 Hsc (or_intror H4)) as (b & j & tp & g & -> & Hch & Hlen & Hz & Hsb & Hmin & Hf).
    { eapply ksorted_sublist; [apply (kid_sublist t (S h) i c Hs Hc)|done]. }
    pose proof Hi as (Hile & Hlt & Hge).
    destruct (shape_zok_frame _ _ i Hs Hile) as (F1 & F2 & F3 & F4).
    destruct Hlo as [|Hlo]; [done|].
    exists b, j, (tp ++ [(t, i)]), g. split_and!.
    + done.
    + apply chain_app. exists c. split; [done|]. simpl. done.
    + rewrite app_length. simpl. lia.
    + apply zok_app. split; [done|]. simpl. rewrite Hlen. split_and!; done.
    + done.
    + intros _. destruct tp as [|x tp]; [|by apply Hmin]. simpl in Hch. by subst.
    + destruct m as [q|]; [done|]. destruct Hf as (G1 & G2 & G3 & G4).
      destruct (lim_fl D key t h i Hs Hsort Hi) as [L1 L2].
      split_and!; [done|done| |].
      * intros q Hq. rewrite ctx_l_app in Hq. simpl in Hq. rewrite <-app_assoc in Hq.
        apply elem_of_app in Hq as [Hq|Hq]; [by apply L1|by apply G3].
      * intros q Hq. rewrite ctx_r_app in Hq. simpl in Hq. rewrite app_nil_r, app_assoc in Hq.
        apply elem_of_app in Hq as [Hq|Hq]; [by apply G4|by apply L2].
Qed.

(** Splitting a node at a key. *)
Lemma inter_key {A} (cs : list (list A)) ks i k :
  cs = [] \/ length cs = S (length ks) -> ks !! i = Some k ->
  inter cs ks = inter (take (S i) cs) (take i ks) ++ k :: inter (drop (S i) cs) (drop (S i) ks).
Proof.
  intros [->|Hl] Hk.
  - rewrite take_nil, drop_nil. simpl. by apply kid_split.
  - pose proof (lookup_lt_Some _ _ _ Hk) as Hlt.
    destruct (lookup_lt_is_Some_2 cs i) as [c Hc]; [lia|].
    rewrite (take_S_r _ _ _ Hc).
    rewrite <-(take_drop i ks) at 1. rewrite (kid_split _ _ _ Hc) at 1.
    assert (length (take i cs) = length (take i ks)) as E1 by (rewrite !take_length; lia).
    rewrite inter_mid by (rewrite ?drop_length; done || lia).
    rewrite <-(app_nil_r (take i ks)) at 2. rewrite (inter_fl _ _ _ _ E1). simpl. rewrite app_nil_r, <-!app_assoc.
    do 2 f_equal. rewrite (drop_S _ _ _ Hk).
    destruct (drop (S i) cs) as [|c' cs'] eqn:Ed.
    + assert (length (drop (S i) cs) = 0) as E by (by rewrite Ed). rewrite drop_length in E. lia.
    + assert (length (drop (S i) cs) = S (length cs')) as E by (by rewrite Ed). rewrite drop_length in E.
      rewrite inter_fr by (rewrite drop_length; lia). done.
Qed.

Definition kl (b : tree) (i : nat) : list nat := inter (map flat (take (S i) (tkids b))) (take i (tkeys b)).
Definition kr (b : tree) (i : nat) : list nat := inter (map flat (drop (S i) (tkids b))) (drop (S i) (tkeys b)).
Lemma flat_key b g i q : shape g b -> tkeys b !! i = Some q -> flat b = kl b i ++ q :: kr b i.
Proof.
  intros Hs Hq. destruct b as [r ks cs]. unfold kl, kr. simpl. rewrite <-firstn_map, <-skipn_map.
  apply inter_key; [|done]. rewrite map_length. destruct g as [|g].
  - destruct Hs as [-> _]. by left.
  - right. by destruct Hs.
Qed.

(** ** Nodes are told apart by their contents *)
Lemma inter_perm {A} (cs : list (list A)) ks : length cs = S (length ks) -> inter cs ks ≡ₚ ks ++ concat cs.
Proof.
  revert ks. induction cs as [|c cs IH]; intros ks Hl; [done|]. destruct ks as [|k ks].
  - destruct cs; [|done]. simpl. try rewrite !app_nil_r. done.
  - cbn [inter concat]. rewrite IH by (simpl in Hl; lia). solve_Permutation.
Qed.

(** A key belongs to one node. *)
Lemma key_owner T : forall h u u' k, shape h T -> NoDup (flat T) -> u ∈ subs T -> u' ∈ subs T ->
  k ∈ tkeys u -> k ∈ tkeys u' -> u = u'.
Proof.
  induction T as [r ks cs IH] using tree_ind'. intros h u u' k Hs Hnd Hu Hu' Hk Hk'.
  destruct h as [|h].
  { destruct Hs as [-> _]. apply elem_of_list_singleton in Hu, Hu'. congruence. }
  pose proof (shape_kids_length _ _ Hs) as Hl. cbn [tkids tkeys] in Hl.
  rewrite flat_Nd, inter_perm in Hnd by (by rewrite map_length). apply NoDup_app in Hnd as (_ & N2 & N3).
  rewrite Forall_forall in IH.
  assert (forall c w, c ∈ cs -> w ∈ subs c -> k ∈ tkeys w -> k ∈ flat c) as Hin.
  { intros c w Hc Hw Hkw. destruct (shape_kids _ _ c Hs Hc) as [_ Hsc]. apply (elem_of_flat_sub _ _ _ Hsc). by exists w. }
  assert (forall c, c ∈ cs -> k ∈ flat c -> k ∈ concat (map flat cs)) as Hin2.
  { intros c Hc Hf. apply elem_of_list_In, in_concat. exists (flat c). split; [apply in_map|]; by apply elem_of_list_In. }
  apply elem_of_subs in Hu as [->|(c & Hc & Hu)], Hu' as [->|(c' & Hc' & Hu')].
  - done.
  - exfalso. simpl in Hk. apply (N2 k Hk). by eapply Hin2, Hin.
  - exfalso. simpl in Hk'. apply (N2 k Hk'). by eapply Hin2, Hin.
  - apply elem_of_list_lookup in Hc as Hc1. destruct Hc1 as [i Hi].
    rewrite (concat_map_split flat cs i c Hi) in N3. apply NoDup_app in N3 as (N4 & N5 & _).
    rewrite (kid_split _ _ _ Hi) in Hc'. apply elem_of_app in Hc' as [Hc'|[->|Hc']%elem_of_cons].
    + exfalso. assert (c' ∈ cs) as Hcc by (apply elem_of_take in Hc' as (j & Hj & _); by eapply elem_of_list_lookup_2).
      apply (N5 k); [by eapply Hin|]. apply elem_of_app. left.
      apply elem_of_list_In, in_concat. exists (flat c'). split; [apply in_map; by apply elem_of_list_In|]. apply elem_of_list_In. by eapply Hin.
    + destruct (shape_kids _ _ c Hs Hc) as [_ Hsc]. by eapply (IH c Hc h).
    + exfalso. assert (c' ∈ cs) as Hcc.
      { apply elem_of_list_lookup in Hc' as [j Hj]. rewrite lookup_drop in Hj. by eapply elem_of_list_lookup_2. }
      apply (N5 k); [by eapply Hin|]. apply elem_of_app. right.
      apply elem_of_list_In, in_concat. exists (flat c'). split; [apply in_map; by apply elem_of_list_In|]. apply elem_of_list_In. by eapply Hin.
Qed.

Lemma node_inj h T u u' : rshape h T -> NoDup (flat T) -> u ∈ subs T -> u' ∈ subs T -> node_of u = node_of u' -> u = u'.
Proof.
  intros [Hs Hr] Hnd Hu Hu' He. injection He as Ek _.
  assert (forall w, w ∈ subs T -> (exists k, k ∈ tkeys w) \/ subs T = [T]) as Hk.
  { intros w Hw. destruct T as [r ks cs]. destruct h as [|h].
    { right. destruct Hs as [-> _]. done. }
    left. assert (tkeys w <> []) as Hne.
    { apply elem_of_subs in Hw as [->|(c & Hc & Hw)]; [by destruct Hr|].
      assert (forall c h w, shape h c -> (4 <= length (tkeys c))%nat -> w ∈ subs c -> tkeys w <> []) as Hgen.
      { clear. induction c as [r ks cs IH] using tree_ind'. intros h w Hs H4 Hw.
        apply elem_of_subs in Hw as [->|(c & Hc & Hw)]; [simpl in *; by destruct ks; simpl in H4; [lia|]|].
        destruct h as [|h]; [destruct Hs as [-> _]; by apply elem_of_nil in Hc|].
        destruct (shape_kids _ _ c Hs Hc). rewrite Forall_forall in IH. by eapply (IH c Hc h). }
      destruct (shape_kids _ _ c Hs Hc). by eapply Hgen. }
    destruct (tkeys w) as [|k l]; [done|]. exists k. left. }
  destruct (Hk u Hu) as [[k Hku]|Hone].
  - eapply key_owner; [exact Hs|done|done|done|exact Hku|]. by rewrite <-Ek.
  - rewrite Hone in Hu, Hu'. apply elem_of_list_singleton in Hu, Hu'. congruence.
Qed.
