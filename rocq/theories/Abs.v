(** From trees to the sorted map of the specification: look-up, insertion,
    removal and ranges on lists of entries; the height of a tree. *)
From Coq.Strings Require Import Byte.
From Coq Require Import Lia Sorting.Sorted.
From stdpp Require Import prelude gmap.
From Verif Require Import Bytes Codec Model CodecProofs Order Wp Store Tree Iter Read Zip Pure Seq Mut MutDel MutTop Spec OrderProofs.

(** ** The order *)
Lemma lexb_key_lt a b : lexb a b = true <-> key_lt a b.
Proof.
  split.
  - revert b. induction a as [|x a IH]; intros [|y b]; simpl; try done; [by constructor|].
    intros [H|[->%bool_decide_eq_true H]%andb_true_iff]%orb_true_iff.
    + apply lt_head. by apply N.ltb_lt.
    + apply lt_tail. by apply IH.
  - induction 1 as [|x y a b H|x a b H IH]; simpl; [done| |].
    + apply N.ltb_lt in H. by rewrite H.
    + rewrite bool_decide_eq_true_2 by done. rewrite IH. by rewrite orb_true_r.
Qed.
Lemma lexb_blt a b : lexb a b = true <-> blt a b.
Proof. by rewrite lexb_key_lt, key_lt_blt. Qed.
Lemma lexb_false a b : blt b a \/ a = b -> lexb a b = false.
Proof.
  intros H. destruct (lexb a b) eqn:E; [|done]. apply lexb_blt in E.
  destruct H as [H| ->]; exfalso; [by eapply blt_asym|by eapply blt_irrefl].
Qed.

(** ** Entries around a key *)
Section around.
  Context (key : bytes) (L R : list kvdata).
  Context (HL : forall e, e ∈ L -> blt (kv_key e) key) (HR : forall e, e ∈ R -> blt key (kv_key e)).

  Lemma find_none (f : kvdata -> bool) l : (forall e, e ∈ l -> f e = false) -> List.find f l = None.
  Proof.
    induction l as [|x l IH]; intros H; simpl; [done|]. rewrite (H x) by left. apply IH. intros e He. apply H. by right.
  Qed.
  Lemma find_app (f : kvdata -> bool) l l' :
    List.find f (l ++ l') = match List.find f l with Some x => Some x | None => List.find f l' end.
  Proof. induction l as [|x l IH]; simpl; [done|]. by destruct (f x). Qed.
  Lemma filter_all {A} (f : A -> bool) l : (forall e, e ∈ l -> f e = true) -> List.filter f l = l.
  Proof.
    induction l as [|x l IH]; intros H; simpl; [done|]. rewrite (H x) by left. f_equal. apply IH. intros e He. apply H. by right.
  Qed.
  Lemma filter_none {A} (f : A -> bool) l : (forall e, e ∈ l -> f e = false) -> List.filter f l = [].
  Proof.
    induction l as [|x l IH]; intros H; simpl; [done|]. rewrite (H x) by left. apply IH. intros e He. apply H. by right.
  Qed.

  Lemma ne_L e : e ∈ L -> bool_decide (kv_key e = key) = false.
  Proof. intros He. apply bool_decide_eq_false. intros E. apply HL in He. rewrite E in He. by eapply blt_irrefl. Qed.
  Lemma ne_R e : e ∈ R -> bool_decide (kv_key e = key) = false.
  Proof. intros He. apply bool_decide_eq_false. intros E. apply HR in He. rewrite E in He. by eapply blt_irrefl. Qed.

  Lemma lookup_hit e : kv_key e = key -> lookup_key key (L ++ e :: R) = Some e.
  Proof.
    intros He. unfold lookup_key. rewrite find_app, (find_none _ L) by apply ne_L. simpl. by rewrite bool_decide_eq_true_2.
  Qed.
  Lemma lookup_miss : lookup_key key (L ++ R) = None.
  Proof.
    unfold lookup_key. rewrite find_app, (find_none _ L) by apply ne_L. apply find_none. apply ne_R.
  Qed.

  Lemma put_around mid e : (forall x, x ∈ mid -> kv_key x = key) -> kv_key e = key ->
    put_entry e (L ++ mid ++ R) = L ++ e :: R.
  Proof.
    intros Hm He. unfold put_entry. rewrite He, !List.filter_app.
    rewrite (filter_all _ L) by (intros x Hx; apply lexb_blt; by apply HL).
    rewrite (filter_none _ mid) by (intros x Hx; apply lexb_false; right; by apply Hm).
    rewrite (filter_none _ R) by (intros x Hx; apply lexb_false; left; by apply HR).
    rewrite (filter_none _ L) by (intros x Hx; apply lexb_false; left; by apply HL).
    rewrite (filter_none _ mid) by (intros x Hx; apply lexb_false; right; symmetry; by apply Hm).
    rewrite (filter_all _ R) by (intros x Hx; apply lexb_blt; by apply HR).
    by rewrite !app_nil_r.
  Qed.

  Lemma remove_around e : kv_key e = key -> remove_key key (L ++ e :: R) = L ++ R.
  Proof.
    intros He. unfold remove_key. rewrite List.filter_app. cbn [List.filter].
    rewrite (bool_decide_eq_true_2 _ He). cbn [negb].
    rewrite (filter_all _ L) by (intros x Hx; by rewrite (ne_L x Hx)).
    by rewrite (filter_all _ R) by (intros x Hx; by rewrite (ne_R x Hx)).
  Qed.
End around.

(** Where a descent ends. *)
Lemma desc_split D key T m tp h :
  desc D (Finite key) T m tp -> rshape h T -> ksorted D (flat T) ->
  exists L R, flat T = L ++ olist m ++ R /\
    (forall k, k ∈ L -> blt (kv_key (D k)) key) /\ (forall k, k ∈ R -> blt key (kv_key (D k))) /\
    (forall q0, m = Some q0 -> kv_key (D q0) = key).
Proof.
  intros Hd [Hs0 Hr0] Hsort.
  destruct (desc_zip _ _ _ _ _ _ 1 Hd Hs0) as (b & i & tp' & g & -> & Hch & Hlen & Hz & Hsb & H4 & Hf).
  { destruct Hr0 as [->|Hne]; [by left|right]. destruct (tkeys T); [done|simpl; lia]. }
  { done. }
  pose proof (chain_flat _ _ _ _ _ Hch Hz) as Hfl. destruct m as [q0|].
  - destruct Hf as [Hi Hk]. rewrite (flat_key b g i q0 Hsb Hi) in Hfl.
    assert (flat T = (ctx_l tp' ++ kl b i) ++ [q0] ++ (kr b i ++ ctx_r tp')) as EF.
    { rewrite Hfl. rewrite <-!app_assoc. done. }
    simpl in Hk. apply bytes_cmp_eq in Hk. unfold keyof in Hk.
    unfold ksorted in Hsort. rewrite EF, map_app in Hsort. cbn [map app] in Hsort.
    apply StronglySorted_app in Hsort as (S1 & S2 & S3). apply StronglySorted_cons in S2 as [S4 S5].
    exists (ctx_l tp' ++ kl b i), (kr b i ++ ctx_r tp'). split_and!; [done| | |by intros ? [= <-]].
    + intros k0 Hk0. rewrite Hk. apply (S3 (keyof D k0)); [by apply elem_of_list_fmap_1|left].
    + intros k0 Hk0. rewrite Hk. apply (S5 (keyof D k0)). by apply elem_of_list_fmap_1.
  - destruct Hf as (Hl & Hi & F1 & F2).
    assert (g = 0) as -> by (destruct g; [done|by apply shape_nonleaf in Hsb]).
    exists (ctx_l tp' ++ take i (tkeys b)), (drop i (tkeys b) ++ ctx_r tp'). split_and!; [| | |done].
    + rewrite Hfl. destruct b as [rb ksb csb]. simpl in Hl. subst csb. simpl. rewrite <-!app_assoc. f_equal.
      by rewrite app_assoc, take_drop.
    + intros k0 Hk0. apply F1 in Hk0. simpl in Hk0. by apply bytes_cmp_gt.
    + intros k0 Hk0. by apply F2 in Hk0.
Qed.

Lemma desc_lookup D key T m tp h :
  desc D (Finite key) T m tp -> rshape h T -> ksorted D (flat T) ->
  lookup_key key (map D (flat T)) = D <$> m.
Proof.
  intros Hd Hs Hk. destruct (desc_split _ _ _ _ _ _ Hd Hs Hk) as (L & R & -> & HL & HR & Hm).
  rewrite !map_app. destruct m as [q|]; simpl.
  - apply lookup_hit; [|by apply Hm]; intros e (k & -> & Hk')%elem_of_list_fmap; auto.
  - apply lookup_miss; intros e (k & -> & Hk')%elem_of_list_fmap; auto.
Qed.

(** ** Ranges *)
Lemma in_range_within conf e : in_range conf (kv_key e) = within conf e.
Proof.
  unfold in_range, within, above_min, below_max. f_equal.
  - destruct (t_min conf) as [a| |]; [|done|done]. cbn [limit_cmp].
    destruct (bytes_cmp a (kv_key e)) eqn:E.
    + apply bytes_cmp_eq in E. subst a. rewrite lexb_false by auto. rewrite bool_decide_eq_true_2 by done. by rewrite andb_true_r.
    + apply lexb_blt in E. by rewrite E.
    + apply bytes_cmp_gt in E. rewrite lexb_false by auto. rewrite bool_decide_eq_false_2; [by rewrite andb_false_r|].
      intros ->. by eapply blt_irrefl.
  - destruct (t_max conf) as [a| |]; [|done|done]. cbn [limit_cmp].
    destruct (bytes_cmp a (kv_key e)) eqn:E.
    + apply bytes_cmp_eq in E. subst a. rewrite lexb_false by auto. rewrite bool_decide_eq_true_2 by done. by rewrite andb_true_r.
    + rewrite lexb_false by auto. rewrite bool_decide_eq_false_2; [by rewrite andb_false_r|].
      intros ->. by eapply blt_irrefl.
    + apply bytes_cmp_gt in E. apply lexb_blt in E. by rewrite E.
Qed.

(** The configurations the builder accepts have consistent bounds. *)
Definition consistent (conf : config) : Prop :=
  match t_min conf, t_max conf with
  | Finite a, Finite b => blt a b \/ (a = b /\ t_min_incl conf = true /\ t_max_incl conf = true)
  | PosInf, _ => False
  | _, NegInf => False
  | _, _ => True
  end.

Lemma build_consistent b conf : build b = Some conf ->
  consistent conf \/ (t_min conf = PosInf /\ t_max conf = PosInf) \/ (t_min conf = NegInf /\ t_max conf = NegInf).
Proof.
  unfold build. destruct (validate b) eqn:Ev; [|done]. intros [= <-]. unfold validate in Ev.
  destruct b as [mn mni mx mxi rv]. unfold consistent. cbn [t_min t_max t_min_incl t_max_incl bd_min bd_max bd_min_incl bd_max_incl] in *.
  destruct mn as [mn|], mx as [mx|]; cbn [default from_option id] in *.
  - destruct mn as [a| |], mx as [b| |]; try done; try (by right; auto).
    left. destruct (bytes_ltb b a) eqn:E1; [done|].
    destruct (bytes_eqb a b) eqn:E2.
    + apply bytes_eqb_eq in E2. right. split; [done|]. destruct mni as [[]|], mxi as [[]|]; done.
    + left. destruct (blt_total a b) as [H|[->|H]]; [done| |].
      * by rewrite (proj2 (bytes_eqb_eq b b) eq_refl) in E2.
      * apply bytes_ltb_lt in H. congruence.
  - destruct mn; [by left|right; auto|by left].
  - destruct mx; [by left|by left|right; auto].
  - by left.
Qed.

Lemma consistent_bounds conf k : consistent conf \/ (t_min conf = PosInf /\ t_max conf = PosInf) \/ (t_min conf = NegInf /\ t_max conf = NegInf) ->
  in_bounds conf k = in_range conf k.
Proof.
  intros H. unfold in_bounds, in_range, consistent in *.
  destruct (limit_cmp (t_min conf) k) eqn:E1; [| |done].
  - destruct (t_min conf) as [a| |] eqn:Em; [|done|done]. simpl in E1. apply bytes_cmp_eq in E1. subst a.
    destruct H as [H|[[]|[]]]; [|done..]. destruct (t_max conf) as [b| |] eqn:Ex; [| |done].
    + simpl. destruct H as [H|(-> & H1 & H2)].
      * apply bytes_cmp_gt in H. rewrite H. by rewrite andb_true_r.
      * rewrite bytes_cmp_refl, H1, H2. done.
    + simpl. by rewrite andb_true_r.
  - simpl. by destruct (limit_cmp (t_max conf) k).
Qed.

Lemma filter_map {A B} (f : B -> bool) (g : A -> B) l : List.filter f (map g l) = map g (List.filter (fun x => f (g x)) l).
Proof. induction l as [|x l IH]; simpl; [done|]. destruct (f (g x)); simpl; by rewrite IH. Qed.

(** What a traversal is expected to yield, in terms of the specification. *)
Lemma expected_gen D conf T : (forall k, k ∈ flat T -> rng conf (kv_key (D k)) = in_range conf (kv_key (D k))) ->
  map (fun x => D (fst x)) (expected D conf T) = range conf (map D (flat T)).
Proof.
  intros Hc. unfold expected, range, dl, in_order.
  assert (map (fun x => D (fst x)) (List.filter (inr D conf) (flatn T)) = List.filter (within conf) (map D (flat T))) as E.
  { rewrite <-(map_fst_flatn T) in Hc |- *. revert Hc.
    induction (flatn T) as [|[k u] l IH]; intros Hc; [done|]. cbn [map List.filter fst]. unfold inr at 1. cbn [fst].
    unfold keyof. rewrite (Hc k) by left. rewrite in_range_within.
    rewrite <-IH by (intros; apply Hc; by right). by destruct (within conf (D k)). }
  destruct (t_rev conf); [|done]. by rewrite map_rev, E.
Qed.

(** ** Height *)
Lemma inter_length {A} (cs : list (list A)) ks : length cs = S (length ks) ->
  length (inter cs ks) = (length ks + length (concat cs))%nat.
Proof.
  revert ks. induction cs as [|c cs IH]; intros ks H; [done|].
  destruct ks as [|k ks].
  - destruct cs; [|done]. cbn [inter concat length]. rewrite !app_nil_r. simpl. done.
  - cbn [inter]. simpl in H. rewrite app_length. cbn [length concat]. rewrite IH by lia. rewrite app_length. lia.
Qed.

Lemma kids_size h : (forall t, shape h t -> (4 <= length (tkeys t))%nat -> (5 ^ S h <= S (length (flat t)))%nat) ->
  forall t, shape (S h) t -> (S (length (tkeys t)) * 5 ^ S h <= S (length (flat t)))%nat.
Proof.
  intros IH t Hs. destruct t as [r ks cs]. destruct Hs as (H1 & H2 & H3). cbn [tkeys].
  rewrite flat_Nd, inter_length by (by rewrite map_length).
  assert (length cs * 5 ^ S h <= length cs + length (concat (map flat cs)))%nat as H; [|rewrite H1 in H; simpl in *; lia].
  clear H1 H2. induction H3 as [|c cs [Hc1 Hc2] H3 IHc]; [simpl; lia|]. specialize (IH c Hc2 Hc1).
  cbn [map concat length] in *. rewrite app_length. simpl in *. lia.
Qed.

Lemma shape_size h : forall t, shape h t -> (4 <= length (tkeys t))%nat -> (5 ^ S h <= S (length (flat t)))%nat.
Proof.
  induction h as [|h IH]; intros t Hs H4.
  - destruct t as [r ks cs]. destruct Hs as [-> H]. simpl in *. lia.
  - pose proof (kids_size h IH t Hs) as H. change (5 ^ S (S h))%nat with (5 * 5 ^ S h)%nat. nia.
Qed.

Lemma rshape_size h t : rshape h t -> (h = 0 \/ 2 * 5 ^ h <= S (length (flat t)))%nat.
Proof.
  intros [Hs [->|Hne]]; [by left|]. destruct h as [|h]; [by left|right].
  pose proof (kids_size h (shape_size h) t Hs) as H. destruct (tkeys t) as [|k ks]; [done|]. simpl in *. nia.
Qed.

Lemma pow5 h : (h < 5 ^ h)%nat.
Proof. induction h as [|h IH]; simpl; lia. Qed.

Lemma wft_height C v h T : wft C v h T -> (h <= v)%nat.
Proof.
  intros HW. destruct (rshape_size h T (wf_shape _ _ _ _ HW)) as [->|H]; [lia|].
  assert (length (flat T) <= v)%nat as Hn.
  { assert (NoDup (flat T)) as Hnd.
    { pose proof (wf_sort _ _ _ _ HW) as Hs. unfold ksorted in Hs. clear -Hs.
      induction (flat T) as [|k l IH]; [constructor|]. cbn [map] in Hs. apply StronglySorted_cons in Hs as [H1 H2].
      constructor; [|by apply IH]. intros Hk. apply (blt_irrefl (keyof (kd C) k)). apply (H2 (keyof (kd C) k)).
      by apply elem_of_list_fmap_1. }
    assert (flat T ⊆+ seq 1 v) as Hsub.
    { apply NoDup_submseteq; [done|]. intros k Hk. apply elem_of_seq.
      destruct (wf_keys _ _ _ _ HW k Hk) as [? _]. lia. }
    apply submseteq_length in Hsub. by rewrite seq_length in Hsub. }
  pose proof (pow5 h). lia.
Qed.
