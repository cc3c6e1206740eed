(** Pure facts behind searching a node and iterating over it. *)
From Coq.Strings Require Import Byte.
From Coq Require Import Lia Sorting.Sorted.
From stdpp Require Import prelude gmap.
From Verif Require Import Bytes Codec Model Order Store Tree.

Definition keyof (D : nat -> kvdata) (q : nat) : bytes := kv_key (D q).
Definition ksorted (D : nat -> kvdata) (l : list nat) : Prop := bsorted (map (keyof D) l).

(** The result of searching a node. *)
Definition idx_ok (D : nat -> kvdata) (key : limit) (ks : list nat) (m : option nat) (i : nat) : Prop :=
  match m with
  | Some q => ks !! i = Some q /\ limit_cmp key (keyof D q) = Eq
  | None =>
      (i <= length ks)%nat /\
      (forall j q, (j < i)%nat -> ks !! j = Some q -> limit_cmp key (keyof D q) = Gt) /\
      (forall j q, (i <= j)%nat -> ks !! j = Some q -> limit_cmp key (keyof D q) = Lt)
  end.

Lemma ksorted_lookup D ks i j qi qj :
  ksorted D ks -> (i < j)%nat -> ks !! i = Some qi -> ks !! j = Some qj -> blt (keyof D qi) (keyof D qj).
Proof.
  intros Hs Hij Hi Hj. rewrite <-(take_drop_middle _ _ _ Hi) in Hs.
  unfold ksorted in Hs. rewrite map_app in Hs. simpl in Hs.
  apply StronglySorted_app in Hs as (_ & Hs & _).
  apply StronglySorted_cons in Hs as [_ Hs]. apply Hs.
  apply elem_of_list_fmap. exists qj. split; [done|].
  apply elem_of_list_lookup. exists (j - S i)%nat. rewrite lookup_drop.
  by replace (S i + (j - S i))%nat with j by lia.
Qed.

Lemma tkeys_sublist t h : shape h t -> sublist (tkeys t) (flat t).
Proof.
  destruct t as [r ks cs]. intros Hs. simpl. apply shape_arity in Hs. simpl in Hs.
  assert (forall (A : Type) (ks : list A) (cls : list (list A)),
    (cls = [] \/ (length ks < length cls)%nat) -> sublist ks (inter cls ks)) as H.
  { clear. intros A ks. induction ks as [|k ks IH]; intros cls Hl; [apply sublist_nil_l|].
    destruct cls as [|c cls]; [done|]. destruct Hl as [|Hl]; [done|]. simpl in *.
    apply sublist_inserts_l. apply sublist_skip. apply IH. right. lia. }
  apply H. rewrite map_length. destruct Hs as [->|]; [by left|by right].
Qed.

Lemma kid_sublist t h i c : shape h t -> tkids t !! i = Some c -> sublist (flat c) (flat t).
Proof.
  destruct t as [r ks cs]. intros Hs Hc. simpl in *.
  destruct h as [|h]; [destruct Hs as [-> _]; by rewrite lookup_nil in Hc|].
  destruct Hs as (Hlen & _ & _).
  rewrite <-(take_drop_middle _ _ _ Hc). rewrite <-(take_drop i ks) at 1.
  rewrite map_app. simpl. pose proof (lookup_lt_Some _ _ _ Hc) as Hi. rewrite inter_mid.
  - apply sublist_inserts_l. by apply sublist_inserts_r.
  - rewrite map_length, !take_length. lia.
  - rewrite map_length, !drop_length. lia.
Qed.

Lemma ksorted_sublist D l1 l2 : sublist l1 l2 -> ksorted D l2 -> ksorted D l1.
Proof.
  intros Hs H. eapply StronglySorted_sublist; [|exact H]. clear H.
  induction Hs; simpl; by constructor.
Qed.

(** ** Traversal ranges *)
(** [k] lies within the configured bounds: the plain meaning. *)
Definition in_range (conf : config) (k : bytes) : bool :=
  match limit_cmp (t_min conf) k with Gt => false | Eq => t_min_incl conf | Lt => true end &&
  match limit_cmp (t_max conf) k with Lt => false | Eq => t_max_incl conf | Gt => true end.

(** What decides membership: forward traversal uses the code's [in_bounds],
    reverse traversal effectively uses the plain meaning. *)
Definition rng (conf : config) (k : bytes) : bool :=
  if t_rev conf then in_range conf k else in_bounds conf k.

Definition dl {A} (conf : config) (l : list A) : list A := if t_rev conf then rev l else l.

Definition inr (D : nat -> kvdata) (conf : config) (x : nat * tree) : bool := rng conf (keyof D (fst x)).

Definition expected (D : nat -> kvdata) (conf : config) (t : tree) : list (nat * tree) :=
  dl conf (List.filter (inr D conf) (flatn t)).

(** Index [i] of a node's child/key sequence. *)
Definition segl (u : tree) (i : nat) : list (nat * tree) :=
  if Nat.even i
  then match tkids u !! Nat.div2 i with Some c => flatn c | None => [] end
  else match tkeys u !! Nat.div2 i with Some k => [(k, u)] | None => [] end.

Definition idx_valid (u : tree) (i : nat) : Prop :=
  if Nat.even i then is_Some (tkids u !! Nat.div2 i) else is_Some (tkeys u !! Nat.div2 i).


Lemma even_2 j : Nat.even (2 * j) = true.
Proof. rewrite Nat.even_mul. done. Qed.
Lemma even_2_1 j : Nat.even (2 * j + 1) = false.
Proof. rewrite Nat.add_1_r, Nat.even_succ, Nat.odd_mul. done. Qed.
Lemma div2_2 j : Nat.div2 (2 * j) = j.
Proof. apply Nat.div2_double. Qed.
Lemma div2_2_1 j : Nat.div2 (2 * j + 1) = j.
Proof. rewrite Nat.add_1_r. apply Nat.div2_succ_double. Qed.
Lemma segl_even u j : segl u (2 * j) = match tkids u !! j with Some c => flatn c | None => [] end.
Proof. unfold segl. by rewrite even_2, div2_2. Qed.
Lemma segl_odd u j : segl u (2 * j + 1) = match tkeys u !! j with Some k => [(k, u)] | None => [] end.
Proof. unfold segl. by rewrite even_2_1, div2_2_1. Qed.
Lemma parity i : (exists j, i = 2 * j)%nat \/ (exists j, i = 2 * j + 1)%nat.
Proof. destruct (Nat.Even_or_Odd i) as [[j H]|[j H]]; eauto. Qed.

(** [flatn] by segments. *)
Lemma inter_segments {A} (cls : list (list A)) (ks : list A) :
  cls = [] \/ length cls = S (length ks) ->
  inter cls ks =
  concat (map (fun i => if Nat.even i then default [] (cls !! Nat.div2 i)
                        else match ks !! Nat.div2 i with Some k => [k] | None => [] end)
              (seq 0 (2 * length ks + 1))).
Proof.
  revert cls. induction ks as [|k ks IH]; intros cls Hl.
  - simpl. rewrite app_nil_r. destruct Hl as [->|Hl]; [done|].
    destruct cls as [|c [|??]]; simpl in *; try done. by rewrite app_nil_r.
  - replace (2 * length (k :: ks) + 1)%nat with (S (S (2 * length ks + 1))) by (simpl; lia).
    cbn [seq map concat].
    rewrite <-seq_shift, <-seq_shift, !map_map.
    change (Nat.even 0) with true. change (Nat.even 1) with false. cbn [Nat.div2].
    assert (forall cls', inter cls' ks =
       concat (map (fun i => if Nat.even (S (S i)) then default [] ((default [] (head cls) :: cls') !! Nat.div2 (S (S i)))
                        else match (k :: ks) !! Nat.div2 (S (S i)) with Some k => [k] | None => [] end)
              (seq 0 (2 * length ks + 1))) <-> inter cls' ks =
  concat (map (fun i => if Nat.even i then default [] (cls' !! Nat.div2 i)
                        else match ks !! Nat.div2 i with Some k => [k] | None => [] end)
              (seq 0 (2 * length ks + 1)))) as Hsh by done.
    destruct cls as [|c cls].
    + simpl inter. change (([] : list (list A)) !! 0%nat) with (@None (list A)). simpl (default [] None).
      cbn [app]. f_equal. rewrite <-(inter_nil ks) at 1. rewrite (IH []) by (by left). f_equal.
    + destruct Hl as [|Hl]; [done|]. simpl in Hl. injection Hl as Hl.
      cbn [inter]. simpl (default [] _). f_equal. simpl ([k] ++ _). f_equal.
      rewrite (IH cls) by (by right). done.
Qed.

Lemma flatn_segments u h :
  shape h u -> flatn u = concat (map (segl u) (seq 0 (2 * length (tkeys u) + 1))).
Proof.
  intros Hs. destruct u as [r ks cs]. cbn [flatn]. rewrite inter_segments.
  - rewrite map_length. cbn [tkeys]. f_equal. apply map_ext. intros i. unfold segl. cbn [tkeys tkids].
    destruct (Nat.even i).
    + rewrite list_lookup_fmap. by destruct (cs !! Nat.div2 i).
    + rewrite list_lookup_fmap. by destruct (ks !! Nat.div2 i).
  - rewrite !map_length. destruct h as [|h].
    + destruct Hs as [-> _]. by left.
    + right. by destruct Hs.
Qed.

Lemma in_concat_seq {A} (g : nat -> list A) R n i j x y :
  StronglySorted R (concat (map g (seq 0 n))) -> (i < j)%nat -> (j < n)%nat ->
  x ∈ g i -> y ∈ g j -> R x y.
Proof.
  intros Hs Hij Hj Hx Hy.
  replace n with (j + (n - j))%nat in Hs by lia.
  rewrite seq_app, map_app, concat_app in Hs. apply StronglySorted_app in Hs as (_ & _ & H).
  apply H.
  - apply elem_of_list_In, in_concat. exists (g i). split; [|by apply elem_of_list_In].
    apply in_map, in_seq. lia.
  - apply elem_of_list_In, in_concat. exists (g j). split; [|by apply elem_of_list_In].
    apply in_map, in_seq. lia.
Qed.

Lemma segl_lt u i x h : shape h u -> x ∈ segl u i -> (i < 2 * length (tkeys u) + 1)%nat.
Proof.
  intros Hs. destruct (parity i) as [[j ->]|[j ->]].
  - rewrite segl_even. destruct (tkids u !! j) as [c|] eqn:E; [|by intros ?%elem_of_nil].
    intros _. destruct h as [|h]; [by rewrite (shape_leaf _ Hs) in E|].
    apply lookup_lt_Some in E. rewrite (shape_kids_length _ _ Hs) in E. lia.
  - rewrite segl_odd. destruct (tkeys u !! j) as [c|] eqn:E; [|by intros ?%elem_of_nil].
    apply lookup_lt_Some in E. lia.
Qed.

Definition nkey (D : nat -> kvdata) (x : nat * tree) : bytes := keyof D (fst x).

Lemma segl_order D u h i j x y :
  shape h u -> ksorted D (flat u) -> (i < j)%nat -> x ∈ segl u i -> y ∈ segl u j ->
  blt (nkey D x) (nkey D y).
Proof.
  intros Hs Hk Hij Hx Hy.
  eapply (in_concat_seq (fun i => map (nkey D) (segl u i)) blt (2 * length (tkeys u) + 1) i j).
  - unfold ksorted in Hk. rewrite <-map_fst_flatn, (flatn_segments u h Hs) in Hk.
    rewrite map_map in Hk. unfold nkey in *. rewrite concat_map, map_map in Hk. done.
  - done.
  - by eapply segl_lt.
  - apply elem_of_list_fmap. eauto.
  - apply elem_of_list_fmap. eauto.
Qed.

(** ** The start of the iteration *)

(** [k] is on the right side of the bound the iteration starts from. *)
Definition near (conf : config) (k : bytes) : bool :=
  if t_rev conf
  then match limit_cmp (t_max conf) k with Lt => false | Eq => t_max_incl conf | Gt => true end
  else match limit_cmp (t_min conf) k with Gt => false | Eq => t_min_incl conf | Lt => true end.

(** [y] comes after [x] in the direction of the iteration. *)
Definition further (conf : config) (x y : bytes) : Prop :=
  if t_rev conf then blt y x else blt x y.

Lemma near_rng conf k : near conf k = false -> rng conf k = false.
Proof.
  unfold near, rng, in_range, in_bounds. destruct (t_rev conf).
  - intros ->. by rewrite andb_false_r.
  - destruct (limit_cmp (t_min conf) k); done.
Qed.
Lemma near_in_bounds conf k : near conf k = true -> in_bounds conf k = rng conf k.
Proof.
  unfold near, rng, in_range, in_bounds. destruct (t_rev conf); [|done].
  intros H. rewrite H, andb_true_r. destruct (limit_cmp (t_min conf) k); try done.
Qed.
Lemma near_further conf x y :
  near conf x = true -> in_bounds conf x = false -> further conf x y -> rng conf y = false.
Proof.
  intros Hn Hb Hf. pose proof (near_in_bounds _ _ Hn) as Hr.
  unfold near, rng, further, in_range, in_bounds in *. destruct (t_rev conf).
  - assert (limit_cmp (t_min conf) x <> Lt) as Hmin.
    { intros E. rewrite E in Hb, Hr. destruct (limit_cmp (t_max conf) x); congruence. }
    by rewrite (limit_cmp_mono_gt _ _ _ Hmin Hf).
  - destruct (limit_cmp (t_min conf) x) eqn:E; [by rewrite Hn in Hb| |done].
    assert (limit_cmp (t_min conf) y = Lt) as ->.
    { eapply limit_cmp_mono_lt; [|exact Hf]. by rewrite E. }
    assert (limit_cmp (t_max conf) x <> Gt) as Hmax.
    { intros E'. by rewrite E' in Hb. }
    by rewrite (limit_cmp_mono_lt _ _ _ Hmax Hf).
Qed.

Lemma elem_of_range_step fuel : forall a b st x, (0 < st)%nat -> (b - a <= fuel)%nat ->
  x ∈ range_step fuel a b st <-> exists k, x = (a + k * st)%nat /\ (x < b)%nat.
Proof.
  induction fuel as [|f IH]; intros a b st x Hst Hf; simpl.
  - split; [by intros ?%elem_of_nil|]. intros (k & -> & H). lia.
  - destruct (Nat.ltb_spec a b) as [Hlt|Hge].
    + rewrite elem_of_cons, IH by lia. split.
      * intros [->|(k & -> & H)]; [exists 0; lia|]. exists (S k). lia.
      * intros ([|k] & -> & H); [left; lia|]. right. exists k. lia.
    + split; [by intros ?%elem_of_nil|]. intros (k & -> & H). lia.
Qed.
Lemma sorted_range_step fuel : forall a b st, (0 < st)%nat -> (b - a <= fuel)%nat ->
  StronglySorted lt (range_step fuel a b st).
Proof.
  induction fuel as [|f IH]; intros a b st Hst Hf; simpl; [constructor|].
  destruct (Nat.ltb_spec a b) as [Hlt|Hge]; [|constructor].
  apply StronglySorted_cons. split; [apply IH; lia|].
  intros y Hy. apply elem_of_range_step in Hy as (k & -> & _); lia.
Qed.

Lemma StronglySorted_rev {A} (R : A -> A -> Prop) l :
  StronglySorted R l -> StronglySorted (flip R) (rev l).
Proof.
  induction l as [|a l IH]; intros H; simpl; [constructor|].
  apply StronglySorted_cons in H as [H1 H2]. apply StronglySorted_app. split_and!.
  - by apply IH.
  - apply StronglySorted_cons. split; [constructor|]. intros y Hy. by apply elem_of_nil in Hy.
  - intros x y Hx Hy. apply elem_of_list_singleton in Hy as ->. apply H2.
    rewrite elem_of_list_In, <-in_rev, <-elem_of_list_In in Hx. done.
Qed.

Definition idx_order (conf : config) (i j : nat) : Prop :=
  if t_rev conf then (j < i)%nat else (i < j)%nat.

(** What the indices to visit are. *)
Lemma iter_spec D conf u h m index :
  shape h u -> ksorted D (flat u) ->
  idx_ok D (if t_rev conf then t_max conf else t_min conf) (tkeys u) m index ->
  let idxs := iter_indices conf (length (tkeys u)) (length (tkids u)) (bool_decide (is_Some m)) index in
  StronglySorted (idx_order conf) idxs /\
  Forall (idx_valid u) idxs /\
  (forall j x, j ∈ idxs -> Nat.even j = false -> x ∈ segl u j -> near conf (nkey D x) = true) /\
  (forall j x, ~ j ∈ idxs -> x ∈ segl u j -> near conf (nkey D x) = false).
Proof.
  intros Hs Hsort Hidx idxs.
  pose proof (fun i j x y => segl_order D u h i j x y Hs Hsort) as Hord.
  set (nk := length (tkeys u)) in *.
  assert (length (tkids u) = 0 /\ tkids u = [] \/ length (tkids u) = S nk)%nat as Hkids.
  { destruct h as [|h]; [left; by rewrite (shape_leaf _ Hs)|right; by apply (shape_kids_length _ _ Hs)]. }
  assert (forall j q, tkeys u !! j = Some q -> (q, u) ∈ segl u (2 * j + 1)) as Hkin.
  { intros j q Hq. rewrite segl_odd, Hq. left. }
  (* the bound of the starting side *)
  set (lim := if t_rev conf then t_max conf else t_min conf) in *.
  set (incl := if t_rev conf then t_max_incl conf else t_min_incl conf) in *.
  (* classification of the segments against [lim] *)
  assert (forall j x, x ∈ segl u j ->
    (bool_decide (is_Some m) = true -> (index < nk)%nat /\
       ((j < 2 * index + 1)%nat -> limit_cmp lim (nkey D x) = Gt) /\
       (j = 2 * index + 1 -> limit_cmp lim (nkey D x) = Eq)%nat /\
       ((2 * index + 1 < j)%nat -> limit_cmp lim (nkey D x) = Lt)) /\
    (bool_decide (is_Some m) = false -> (index <= nk)%nat /\
       ((j < 2 * index)%nat -> limit_cmp lim (nkey D x) = Gt) /\
       ((2 * index < j)%nat -> limit_cmp lim (nkey D x) = Lt))) as Hcls.
  { intros j x Hx. destruct m as [q|];
      [change (bool_decide (is_Some (Some q))) with true|change (bool_decide (is_Some (@None nat))) with false].
    - destruct Hidx as [Hi Hc]. split; [|done]. intros _. pose proof (Hkin _ _ Hi) as Hq.
      split; [by apply lookup_lt_Some in Hi|]. split_and!.
      + intros Hj. eapply limit_cmp_mono_gt; [|eapply Hord; [exact Hj|exact Hx|exact Hq]].
        unfold nkey. simpl. by rewrite Hc.
      + intros Hj. subst j. rewrite segl_odd, Hi in Hx. apply elem_of_list_singleton in Hx as ->. done.
      + intros Hj. eapply limit_cmp_mono_lt; [|eapply Hord; [exact Hj|exact Hq|exact Hx]].
        unfold nkey. simpl. by rewrite Hc.
    - destruct Hidx as (Hi & Hlt & Hge). split; [done|]. intros _. split; [done|].
      pose proof (segl_lt _ _ _ _ Hs Hx) as Hjn. fold nk in Hjn, Hi. split.
      + intros Hj. destruct (parity j) as [[i ->]|[i ->]].
        * destruct (lookup_lt_is_Some_2 (tkeys u) i) as [q Hq]; [fold nk; lia|].
          eapply limit_cmp_mono_gt; [|eapply (Hord (2 * i)%nat (2 * i + 1)%nat); [lia|exact Hx|by apply Hkin]].
          unfold nkey. simpl. rewrite (Hlt i q); [done|lia|done].
        * rewrite segl_odd in Hx. destruct (tkeys u !! i) as [q|] eqn:Hq; [|by apply elem_of_nil in Hx].
          apply elem_of_list_singleton in Hx as ->. apply (Hlt i); [lia|done].
      + intros Hj. destruct (parity j) as [[i ->]|[i ->]].
        * destruct (lookup_lt_is_Some_2 (tkeys u) (i - 1)) as [q Hq]; [fold nk; lia|].
          eapply limit_cmp_mono_lt; [|eapply (Hord (2 * (i - 1) + 1)%nat (2 * i)%nat); [lia|by apply Hkin|exact Hx]].
          unfold nkey. simpl. rewrite (Hge (i - 1)%nat q); [done|lia|done].
        * rewrite segl_odd in Hx. destruct (tkeys u !! i) as [q|] eqn:Hq; [|by apply elem_of_nil in Hx].
          apply elem_of_list_singleton in Hx as ->. apply (Hge i); [lia|done]. }
  assert (forall k, near conf k = match limit_cmp lim k with
     | Eq => incl | Lt => negb (t_rev conf) | Gt => t_rev conf end) as Hnear.
  { intros k. unfold near, lim, incl. destruct (t_rev conf); done. }
  assert (forall j, (j < 2 * nk + 1)%nat -> (Nat.even j = false \/ (0 < length (tkids u))%nat) -> idx_valid u j) as Hvalid.
  { intros j Hj He. unfold idx_valid. destruct (parity j) as [[i ->]|[i ->]].
    - rewrite even_2, div2_2. destruct He as [He|He]; [by rewrite even_2 in He|].
      apply lookup_lt_is_Some_2. lia.
    - rewrite even_2_1, div2_2_1. apply lookup_lt_is_Some_2. fold nk. lia. }
  assert (tkids u = [] -> forall j x, x ∈ segl u j -> exists i, j = (2 * i + 1)%nat) as Hleafodd.
  { intros Hl j x Hx. destruct (parity j) as [[i ->]|Hi]; [|done].
    rewrite segl_even, Hl in Hx. by apply elem_of_nil in Hx. }
  assert (index <= nk /\ (bool_decide (is_Some m) = true -> index < nk))%nat as [Hile Hilt].
  { destruct m as [q|]; simpl.
    - destruct Hidx as [Hi _]. apply lookup_lt_Some in Hi. fold nk in Hi. lia.
    - destruct Hidx as [Hi _]. split; [done|]. done. }
  (* it is enough to know the members *)
  assert (forall (l : list nat) (start : nat) (leaf : bool),
    (leaf = true -> tkids u = [] /\ exists k, start = 2 * k + 1)%nat -> (leaf = false -> length (tkids u) = S nk) ->
    l = (if negb (t_rev conf) then range_by start (nk * 2 + 1) (if leaf then 2 else 1)
         else rev (range_by (if leaf then 1 else 0) (start + 1) (if leaf then 2 else 1))) ->
    (t_rev conf = true -> start < 2 * nk + 1)%nat ->
    (forall j x, x ∈ segl u j -> Nat.even j = false -> (if t_rev conf then j <= start else start <= j)%nat -> near conf (nkey D x) = true) ->
    (forall j x, x ∈ segl u j -> (if t_rev conf then start < j else j < start)%nat -> near conf (nkey D x) = false) ->
    StronglySorted (idx_order conf) l /\ Forall (idx_valid u) l /\
    (forall j x, j ∈ l -> Nat.even j = false -> x ∈ segl u j -> near conf (nkey D x) = true) /\
    (forall j x, ~ j ∈ l -> x ∈ segl u j -> near conf (nkey D x) = false)) as Hmain.
  { intros l start leaf Hleaf Hint -> Hst Hin Hout.
    set (sb := if leaf then 2 else 1).
    assert (0 < sb)%nat as Hsb by (unfold sb; destruct leaf; lia).
    unfold idx_order. destruct (t_rev conf) eqn:Erev; cbn [negb].
    - assert (forall j, j ∈ rev (range_by (if leaf then 1 else 0) (start + 1) sb) <->
         exists k, j = ((if leaf then 1 else 0) + k * sb)%nat /\ (j <= start)%nat) as Hel.
      { intros j. rewrite elem_of_list_In, <-in_rev, <-elem_of_list_In. unfold range_by.
        rewrite elem_of_range_step by (unfold sb in *; lia). split; intros (k & H1 & H2); exists k; lia. }
      split_and!.
      + apply (StronglySorted_rev lt). apply sorted_range_step; [done|lia].
      + apply Forall_forall. intros j Hj. apply Hel in Hj as (k & -> & Hj). specialize (Hst eq_refl).
        apply Hvalid; [lia|]. unfold sb. destruct leaf.
        * left. replace (1 + k * 2)%nat with (2 * k + 1)%nat by lia. apply even_2_1.
        * right. rewrite Hint by done. lia.
      + intros j x Hj He Hx. apply Hel in Hj as (k & Hj & Hj'). by eapply Hin.
      + intros j x Hj Hx. eapply (Hout j); [done|]. destruct (decide (start < j)%nat) as [|Hge]; [done|].
        exfalso. apply Hj. apply Hel. unfold sb. destruct leaf.
        * destruct (Hleaf eq_refl) as [Hl _]. destruct (Hleafodd Hl _ _ Hx) as [i ->]. exists i. lia.
        * exists j. lia.
    - assert (forall j, j ∈ range_by start (nk * 2 + 1) sb <->
         exists k, j = (start + k * sb)%nat /\ (j < 2 * nk + 1)%nat) as Hel.
      { intros j. unfold range_by.
        rewrite elem_of_range_step by (unfold sb in *; lia). split; intros (k & H1 & H2); exists k; lia. }
      split_and!.
      + apply sorted_range_step; [done|lia].
      + apply Forall_forall. intros j Hj. apply Hel in Hj as (k & -> & Hj).
        apply Hvalid; [lia|]. unfold sb in *. destruct leaf.
        * left. destruct (Hleaf eq_refl) as [_ [k' ->]].
          replace (2 * k' + 1 + k * 2)%nat with (2 * (k' + k) + 1)%nat by lia. apply even_2_1.
        * right. rewrite Hint by done. lia.
      + intros j x Hj He Hx. apply Hel in Hj as (k & Hj & Hj'). eapply Hin; [done|done|lia].
      + intros j x Hj Hx. eapply (Hout j); [done|]. destruct (decide (j < start)%nat) as [|Hge]; [done|].
        exfalso. apply Hj. apply Hel. pose proof (segl_lt _ _ _ _ Hs Hx) as Hjn. fold nk in Hjn.
        unfold sb. destruct leaf.
        * destruct (Hleaf eq_refl) as [Hl [k ->]]. destruct (Hleafodd Hl _ _ Hx) as [i ->].
          exists (i - k)%nat. lia.
        * exists (j - start)%nat. lia. }
  assert (forall j x, x ∈ segl u j -> near conf (nkey D x) =
      match limit_cmp lim (nkey D x) with Eq => incl | Lt => negb (t_rev conf) | Gt => t_rev conf end)
    as Hnear' by (intros; apply Hnear).
  assert (forall j, j = (2 * index + 1)%nat \/ (j < 2 * index + 1)%nat \/ (2 * index + 1 < j)%nat) as Htri by lia.
  set (leaf := (length (tkids u) =? 0)%nat).
  assert (leaf = true -> tkids u = []) as Hl1.
  { unfold leaf. rewrite Nat.eqb_eq. apply nil_length_inv. }
  assert (leaf = false -> length (tkids u) = S nk) as Hl2.
  { unfold leaf. rewrite Nat.eqb_neq. destruct Hkids as [[H _]|H]; [lia|done]. }
  unfold idxs, iter_indices. cbv zeta. fold leaf. fold nk.
  change (if t_rev conf then t_max_incl conf else t_min_incl conf) with incl.
  destruct (bool_decide (is_Some m)) eqn:Em.
  - specialize (Hilt eq_refl).
    assert (forall j x, x ∈ segl u j -> near conf (nkey D x) =
      if (j =? 2 * index + 1)%nat then incl
      else if (j <? 2 * index + 1)%nat then t_rev conf else negb (t_rev conf)) as Hn.
    { intros j x Hx. rewrite Hnear. destruct (Hcls j x Hx) as [Hm _].
      destruct (Hm eq_refl) as (_ & H1 & H2 & H3).
      destruct (Nat.eqb_spec j (2 * index + 1)) as [E|E]; [by rewrite H2|].
      destruct (Nat.ltb_spec j (2 * index + 1)); [by rewrite H1|rewrite H3 by lia; done]. }
    replace (index * 2 + 1)%nat with (2 * index + 1)%nat by lia.
    destruct incl eqn:Eincl.
    + apply (Hmain _ (2 * index + 1)%nat leaf); [by eauto|done|done|intros; lia| |].
      * intros j x Hx He Hj. rewrite (Hn j x Hx). destruct (Nat.eqb_spec j (2 * index + 1)); [done|].
        destruct (t_rev conf), (Nat.ltb_spec j (2 * index + 1)); done || lia.
      * intros j x Hx Hj. rewrite (Hn j x Hx).
        destruct (t_rev conf), (Nat.eqb_spec j (2 * index + 1)), (Nat.ltb_spec j (2 * index + 1)); done || lia.
    + destruct (t_rev conf) eqn:Erev; cbn [negb].
      * destruct ((2 * index + 1 =? 1)%nat && ((if leaf then 2 else 1) =? 2)%nat) eqn:Espec.
        { (* nothing to visit: leaf, first key equals the excluded maximum *)
          apply andb_true_iff in Espec as [E1 E2]. apply Nat.eqb_eq in E1.
          assert (leaf = true) as Hleaf by (by destruct leaf). specialize (Hl1 Hleaf).
          split_and!; [constructor|constructor|by intros ?? ?%elem_of_nil|].
          intros j x _ Hx. rewrite (Hn j x Hx).
          destruct (Hleafodd Hl1 _ _ Hx) as [i ->].
          destruct (Nat.eqb_spec (2 * i + 1) (2 * index + 1)); [done|].
          destruct (Nat.ltb_spec (2 * i + 1) (2 * index + 1)); [lia|done]. }
        assert (leaf = true -> 0 < index)%nat as Hpos.
        { intros Hleaf. rewrite Hleaf in Espec. simpl in Espec. rewrite andb_true_r in Espec.
          apply Nat.eqb_neq in Espec. lia. }
        apply (Hmain _ (2 * index + 1 - (if leaf then 2 else 1))%nat leaf).
        -- intros Hleaf. split; [by apply Hl1|]. specialize (Hpos Hleaf). rewrite Hleaf.
           exists (index - 1)%nat. lia.
        -- done.
        -- done.
        -- intros _. lia.
        -- intros j x Hx He Hj. rewrite (Hn j x Hx).
           destruct (Nat.eqb_spec j (2 * index + 1)), (Nat.ltb_spec j (2 * index + 1));
             destruct leaf; try specialize (Hpos eq_refl); done || lia.
        -- intros j x Hx Hj. rewrite (Hn j x Hx).
           destruct (Nat.eqb_spec j (2 * index + 1)); [done|].
           destruct (Nat.ltb_spec j (2 * index + 1)); [|done]. exfalso.
           destruct leaf; [|lia]. destruct (Hleafodd (Hl1 eq_refl) _ _ Hx) as [i ->].
           specialize (Hpos eq_refl). lia.
      * apply (Hmain _ (2 * index + 1 + (if leaf then 2 else 1))%nat leaf).
        -- intros Hleaf. split; [by apply Hl1|]. rewrite Hleaf. exists (index + 1)%nat. lia.
        -- done.
        -- done.
        -- done.
        -- intros j x Hx He Hj. rewrite (Hn j x Hx).
           destruct (Nat.eqb_spec j (2 * index + 1)), (Nat.ltb_spec j (2 * index + 1));
             destruct leaf; done || lia.
        -- intros j x Hx Hj. rewrite (Hn j x Hx).
           destruct (Nat.eqb_spec j (2 * index + 1)); [done|].
           destruct (Nat.ltb_spec j (2 * index + 1)); [done|]. exfalso.
           destruct leaf; [|lia]. destruct (Hleafodd (Hl1 eq_refl) _ _ Hx) as [i ->]. lia.
  - assert (forall j x, x ∈ segl u j -> j <> (2 * index)%nat -> near conf (nkey D x) =
      if (j <? 2 * index)%nat then t_rev conf else negb (t_rev conf)) as Hn.
    { intros j x Hx Hne. rewrite Hnear. destruct (Hcls j x Hx) as [_ Hm].
      destruct (Hm eq_refl) as (_ & H1 & H2).
      destruct (Nat.ltb_spec j (2 * index)); [by rewrite H1|rewrite H2 by lia; done]. }
    assert (forall j x, x ∈ segl u j -> leaf = true -> j <> (2 * index)%nat) as Hlne.
    { intros j x Hx Hleaf. destruct (Hleafodd (Hl1 Hleaf) _ _ Hx) as [i ->]. lia. }
    assert (forall j, Nat.even j = false -> j <> (2 * index)%nat) as Hone.
    { intros j He ->. by rewrite even_2 in He. }
    replace (index * 2)%nat with (2 * index)%nat by lia.
    destruct leaf eqn:Eleaf; cbn [negb].
    + destruct (t_rev conf) eqn:Erev; cbn [negb].
      * destruct (Nat.eqb_spec (2 * index) 0) as [E|E].
        { split_and!; [constructor|constructor|by intros ?? ?%elem_of_nil|].
          intros j x _ Hx. rewrite (Hn j x Hx) by (by eapply Hlne).
          destruct (Nat.ltb_spec j (2 * index)); [lia|done]. }
        apply (Hmain _ (2 * index - 1)%nat true).
        -- intros _. split; [by apply Hl1|]. exists (index - 1)%nat. lia.
        -- done.
        -- done.
        -- intros _. lia.
        -- intros j x Hx He Hj. rewrite (Hn j x Hx) by auto.
           destruct (Nat.ltb_spec j (2 * index)); [done|lia].
        -- intros j x Hx Hj. rewrite (Hn j x Hx) by (by eapply Hlne).
           destruct (Nat.ltb_spec j (2 * index)); [lia|done].
      * apply (Hmain _ (2 * index + 1)%nat true).
        -- intros _. split; [by apply Hl1|]. eauto.
        -- done.
        -- done.
        -- done.
        -- intros j x Hx He Hj. rewrite (Hn j x Hx) by auto.
           destruct (Nat.ltb_spec j (2 * index)); [lia|done].
        -- intros j x Hx Hj. pose proof (Hlne j x Hx eq_refl). rewrite (Hn j x Hx) by done.
           destruct (Nat.ltb_spec j (2 * index)); [done|lia].
    + apply (Hmain _ (2 * index)%nat false); [done|auto|done|intros; lia| |].
      * intros j x Hx He Hj. rewrite (Hn j x Hx) by auto. specialize (Hone j He).
        destruct (t_rev conf), (Nat.ltb_spec j (2 * index)); done || lia.
      * intros j x Hx Hj. rewrite (Hn j x Hx) by (destruct (t_rev conf); lia).
        destruct (t_rev conf), (Nat.ltb_spec j (2 * index)); done || lia.
Qed.

(** Leaving out segments without elements in range. *)
Lemma concat_skip {A} (g : nat -> list A) n : forall a l,
  StronglySorted lt l -> Forall (fun i => a <= i < a + n)%nat l ->
  (forall j, (a <= j < a + n)%nat -> ~ j ∈ l -> g j = []) ->
  concat (map g (seq a n)) = concat (map g l).
Proof.
  induction n as [|n IH]; intros a l Hs Hb Hg.
  - destruct l as [|i l]; [done|]. inversion Hb; lia.
  - simpl. destruct l as [|i l].
    + rewrite Hg by (lia || apply not_elem_of_nil). simpl. rewrite (IH (S a) []); [done|constructor|constructor|].
      intros j Hj. apply Hg. lia.
    + apply StronglySorted_cons in Hs as [Hs Hlt]. inversion Hb as [|?? Hi Hl]; subst.
      destruct (decide (i = a)) as [->|Hne].
      * simpl. f_equal. apply IH; [done| |].
        -- apply Forall_forall. intros j Hj. rewrite Forall_forall in Hl.
           specialize (Hl j Hj). specialize (Hlt j Hj). simpl in Hl. lia.
        -- intros j Hj Hn. apply Hg; [lia|]. intros Hc. apply elem_of_cons in Hc as [->|Hc]; [lia|done].
      * rewrite Hg; [| lia |].
        -- simpl. apply (IH (S a) (i :: l)).
           ++ by apply StronglySorted_cons.
           ++ constructor; [simpl; lia|]. apply Forall_forall. intros j Hj. rewrite Forall_forall in Hl.
              specialize (Hl j Hj). specialize (Hlt j Hj). simpl in Hl. lia.
           ++ intros j Hj. apply Hg. lia.
        -- intros Hc. apply elem_of_cons in Hc as [->|Hc]; [lia|]. specialize (Hlt _ Hc). lia.
Qed.

Lemma filter_concat {A} (f : A -> bool) ls : List.filter f (concat ls) = concat (map (List.filter f) ls).
Proof. induction ls as [|l ls IH]; [done|]. simpl. by rewrite List.filter_app, IH. Qed.

Lemma rev_concat {A} (ls : list (list A)) : rev (concat ls) = concat (map (@rev A) (rev ls)).
Proof.
  induction ls as [|l ls IH]; [done|]. simpl. rewrite rev_app_distr, IH, map_app, concat_app.
  simpl. by rewrite app_nil_r.
Qed.

(** What the loop over [idxs] should yield. *)
Definition expect_at D conf u i : list (nat * tree) := dl conf (List.filter (inr D conf) (segl u i)).
Definition expect_idxs D conf u idxs : list (nat * tree) := concat (map (expect_at D conf u) idxs).

Lemma expect_all D conf u h idxs :
  shape h u ->
  StronglySorted (idx_order conf) idxs -> Forall (idx_valid u) idxs ->
  (forall j x, ~ j ∈ idxs -> x ∈ segl u j -> near conf (nkey D x) = false) ->
  expected D conf u = expect_idxs D conf u idxs.
Proof.
  intros Hs Hso Hv Hout. unfold expected, expect_idxs. rewrite (flatn_segments u h Hs).
  rewrite filter_concat, map_map.
  assert (forall i, idx_valid u i -> (i < 2 * length (tkeys u) + 1)%nat) as Hlt.
  { intros i Hi. unfold idx_valid in Hi. destruct (parity i) as [[j ->]|[j ->]].
    - rewrite even_2, div2_2 in Hi. apply lookup_lt_is_Some_1 in Hi.
      destruct h as [|h]; [rewrite (shape_leaf _ Hs) in Hi; simpl in Hi; lia|].
      rewrite (shape_kids_length _ _ Hs) in Hi. lia.
    - rewrite even_2_1, div2_2_1 in Hi. apply lookup_lt_is_Some_1 in Hi. lia. }
  assert (forall j, ~ j ∈ idxs -> List.filter (inr D conf) (segl u j) = []) as Hnil.
  { intros j Hj. specialize (Hout j).
    induction (segl u j) as [|x l IH]; [done|]. simpl.
    unfold inr. rewrite near_rng; [|apply Hout; [done|left]].
    apply IH. intros y Hy Hy'. apply Hout; [done|by right]. }
  unfold expect_at, dl, idx_order in *. destruct (t_rev conf).
  - rewrite (concat_skip _ _ 0 (rev idxs)).
    + rewrite rev_concat, <-map_rev, rev_involutive, map_map. done.
    + apply StronglySorted_rev in Hso. done.
    + apply Forall_forall. intros i Hi. rewrite elem_of_list_In, <-in_rev, <-elem_of_list_In in Hi.
      rewrite Forall_forall in Hv. specialize (Hlt _ (Hv i Hi)). lia.
    + intros j _ Hj. apply Hnil. by rewrite elem_of_list_In, <-in_rev, <-elem_of_list_In in Hj.
  - apply concat_skip; [done| |].
    + apply Forall_forall. intros i Hi. rewrite Forall_forall in Hv. specialize (Hlt _ (Hv i Hi)). lia.
    + intros j _ Hj. by apply Hnil.
Qed.
