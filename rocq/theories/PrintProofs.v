(** Height and printout. *)
From Coq.Strings Require Import Byte.
From Coq Require Import Lia Sorting.Sorted.
From stdpp Require Import prelude gmap.
From Verif Require Import Bytes Codec Model CodecProofs Order Wp Store Tree Iter Read Zip Pure Seq Mut MutDel MutTop Commit Spec OrderProofs Client Abs Api Call Det Hist Main Shape Utf8.

(** ** Heights of trees *)
Fixpoint ht (t : tree) : nat := match t with Nd _ _ cs => match cs with [] => 0 | c :: _ => S (ht c) end end.

Lemma shape_ht h : forall t, shape h t -> ht t = h.
Proof.
  induction h as [|h IH]; intros [r ks cs] Hs.
  - by destruct Hs as [-> _].
  - destruct cs as [|c cs]; [by apply shape_nonleaf in Hs|]. cbn [ht]. f_equal. apply IH.
    eapply (shape_kids _ _ c Hs). by left.
Qed.

Lemma flatn_subs h : forall t, shape h t -> forall x, x ∈ flatn t -> exists h', (h' <= h)%nat /\ shape h' (snd x) /\ snd x ∈ subs t.
Proof.
  induction h as [|h IH]; intros [r ks cs] Hs [q u] Hx; cbn [flatn] in Hx.
  - destruct Hs as [-> Hl]. cbn in Hx. apply elem_of_list_fmap in Hx as (k & [= -> ->] & _). exists 0. split_and!; [done|done|apply subs_self].
  - pose proof Hs as Hs0.
    assert (Hx' : (q, u) ∈ map (fun k => (k, Nd r ks cs)) ks \/ exists c, c ∈ cs /\ (q, u) ∈ flatn c).
    { apply elem_of_inter in Hx; [|right; rewrite !map_length; pose proof (shape_kids_length _ _ Hs0) as E; cbn in E; lia].
      destruct Hx as [Hx|(c & Hc & Hx)]; [by left|]. apply elem_of_list_fmap in Hc as (c' & -> & Hc'). right. by exists c'. }
    destruct Hx' as [Hx'|(c & Hc & Hx')].
    + apply elem_of_list_fmap in Hx' as (k & [= -> ->] & _). exists (S h). split_and!; [done|done|apply subs_self].
    + destruct (IH c (proj2 (shape_kids _ _ c Hs0 Hc)) _ Hx') as (h' & ? & ? & ?). exists h'. split_and!; [lia|done|].
      by eapply (subs_kid (Nd r ks cs)).
Qed.

Lemma sublist_in {A} (l1 l2 : list A) x : sublist l1 l2 -> x ∈ l1 -> x ∈ l2.
Proof. induction 1 as [|y l1 l2 _ IH|y l1 l2 _ IH]; [done| |]; rewrite ?elem_of_cons; tauto. Qed.
Lemma tkeys_flat h : forall t u q, shape h t -> u ∈ subs t -> q ∈ tkeys u -> q ∈ flat t.
Proof.
  induction h as [|h IH]; intros [r ks cs] u q Hs Hu Hq; cbn [subs] in Hu.
  all: apply elem_of_cons in Hu as [->|Hu]; [eapply sublist_in; [by eapply tkeys_sublist|done]|].
  all: apply elem_of_list_In, in_concat in Hu as (l & Hl & Hu); apply in_map_iff in Hl as (c & <- & Hc).
  all: apply elem_of_list_In in Hu; apply elem_of_list_In in Hc.
  - destruct Hs as [-> _]. by apply elem_of_nil in Hc.
  - pose proof Hc as Hc0. apply elem_of_list_lookup in Hc as [i Hc]. eapply sublist_in; [exact (kid_sublist (Nd r ks cs) _ i c Hs Hc)|].
    eapply IH; [|exact Hu|done]. by eapply (shape_kids _ (Nd r ks cs)).
Qed.

Lemma map_ext_elem {A B} (f g : A -> B) l : (forall x, x ∈ l -> f x = g x) -> map f l = map g l.
Proof. intros H. apply map_ext_in. intros x Hx. apply H. by apply elem_of_list_In. Qed.

Lemma listing_erase C h : forall d t, shape h t ->
  map (fun x : nat * tree => (d + (h - ht (snd x)), keyof (kd C) (fst x))) (flatn t) = listing d (erase C t).
Proof.
  induction h as [|h IH]; intros d [r ks cs] Hs; cbn [flatn erase listing]; (etransitivity; [|symmetry; apply interleave_inter]); rewrite inter_map; f_equal; rewrite map_map, map_map.
  - by destruct Hs as [-> _].
  - apply map_ext. intros k. cbn [fst snd]. rewrite (shape_ht _ _ Hs). f_equal. lia.
  - apply map_ext_elem. intros c Hc. destruct (shape_kids _ _ c Hs Hc) as [_ Hsc].
    rewrite <-(IH (S d) c Hsc). apply map_ext_elem. intros x Hx.
    destruct (flatn_subs _ _ Hsc x Hx) as (h' & Hh' & Hu & _). rewrite (shape_ht _ _ Hu). f_equal. lia.
  - apply map_ext. intros k. cbn [fst snd]. rewrite (shape_ht _ _ Hs). f_equal. lia.
Qed.

Lemma map_snd_listing d t : map snd (listing d t) = inorder t.
Proof.
  revert d. induction t as [ks ts IH] using (fix F (t : stree) : forall P : stree -> Prop, (forall ks ts, Forall P ts -> P (SNode ks ts)) -> P t :=
    fun P H => match t with SNode ks ts => H ks ts ((fix G l : Forall P l := match l with [] => Forall_nil_2 _ | x :: l' => Forall_cons_2 _ _ _ (F x P H) (G l') end) ts) end).
  intros d. cbn [listing inorder]. rewrite !interleave_inter, inter_map, !map_map. cbn [snd]. rewrite map_id. f_equal.
  induction IH as [|c ts Hc _ IHc]; [done|]. cbn [map]. by rewrite Hc, IHc.
Qed.

Lemma balanced_paths root h : forall t, balanced root h t -> Forall (fun n => n = S h) (path_lengths t) /\ path_lengths t <> [].
Proof.
  revert root. induction h as [|h IH]; intros root [ks ts] Hb; cbn [path_lengths].
  - destruct Hb as (? & ? & ?). destruct ts; [|done]. split; [by constructor|done].
  - destruct Hb as (H1 & H2 & H3 & H4 & Hts). destruct ts as [|t ts]; [done|].
    apply Forall_cons in Hts as [Ht Hts]. destruct (IH _ _ Ht) as [IH1 IH2]. split.
    + apply Forall_fmap. cbn [map concat]. apply Forall_app. split; [eapply Forall_impl; [exact IH1|]; cbn; lia|].
      clear -Hts IH. induction Hts as [|u us Hu _ IHu]; [constructor|]. cbn [map concat]. apply Forall_app. split; [|done].
      destruct (IH _ _ Hu) as [IH1 _]. eapply Forall_impl; [exact IH1|]; cbn; lia.
    + cbn [map concat]. destruct (path_lengths t); [done|]. cbn. done.
Qed.

(** ** The programs *)
Lemma swp_node_height D t h n s (Q : nat -> st -> Prop) (E : stop -> st -> Prop) fuel :
  hwf s -> ready D s t -> shape h t -> (h < fuel)%nat -> heap s !! n = Some (node_of t) ->
  (forall s', sext s s' -> hwf s' -> Q (S h) s') -> sEok E s -> swp (node_height fuel n) Q E s.
Proof.
  intros. eapply (wp_node_height eq (fun _ _ => True) sext hwf loc);
    eauto using eq_sext, sext_refl, sext_trans, sext_hwf, sext_heap, sext_blk, sx_oracle, sext_hnode', sext_loc.
  all: try (intros; by eapply blocks_get_seq).
  all: try (by intros ? [? _]).
Qed.

Lemma swp_trav D conf u h n s (Q : stream_result -> st -> Prop) (E : stop -> st -> Prop) fuel :
  hwf s -> ready D s u -> shape h u -> ksorted D (flat u) -> (h < fuel)%nat -> heap s !! n = Some (node_of u) ->
  (forall its b s', sext s s' -> hwf s' -> tpost D (fun _ => True) s its b (expected D conf u) s' -> Q (its, b) s') ->
  swp (trav fuel conf n) Q E s.
Proof.
  intros. eapply (wp_trav eq (fun _ _ => True) sext hwf loc);
    eauto using eq_sext, sext_refl, sext_trans, sext_hwf, sext_heap, sext_blk, sx_oracle, sext_hnode', sext_loc.
  all: try (intros; by eapply blocks_get_seq).
  all: try (by intros ? [? _]).
  all: done.
Qed.

Lemma swp_each {A} D T hT (Inv : list (nat * tree) -> A -> Prop) (body : item * nid -> A -> prog A) (E : stop -> st -> Prop) fuel n acc s
    (Q : A * bool -> st -> Prop) :
  (forall q u h n acc l s' (Q : A -> st -> Prop), u ∈ subs T -> q ∈ tkeys u -> shape h u -> (h <= hT)%nat ->
     hwf s' -> oracle s' `suffix_of` oracle s -> ready D s' u -> heap s' !! n = Some (node_of u) -> Inv l acc ->
     (forall acc' s2, sext s' s2 -> hwf s2 -> Inv (l ++ [(q, u)]) acc' -> Q acc' s2) -> swp (body (IOk (D q), n) acc) Q E s') ->
  (forall e u h n acc s' (Q : A -> st -> Prop), faulty (oracle s) -> u ∈ subs T -> shape h u -> (h <= hT)%nat ->
     hwf s' -> oracle s' `suffix_of` oracle s -> ready D s' u -> heap s' !! n = Some (node_of u) -> swp (body (IErr e, n) acc) Q E s') ->
  hwf s -> ready D s T -> shape hT T -> ksorted D (flat T) -> (hT < fuel)%nat ->
  heap s !! n = Some (node_of T) -> Inv [] acc ->
  (forall acc' s', sext s s' -> hwf s' -> Inv (flatn T) acc' -> Q (acc', false) s') ->
  swp (each body fuel default_config n acc) Q E s.
Proof.
  intros Hb He ? ? ? ? ? ? ? HQ. eapply (wp_each eq (fun _ _ => True) sext hwf loc) with (o0 := oracle s) (T := T) (hT := hT) (u := T) (l := []);
    eauto using eq_sext, sext_refl, sext_trans, sext_hwf, sext_heap, sext_blk, sx_oracle, sext_hnode', sext_loc, subs_self.
  all: try (intros; by eapply blocks_get_seq).
  all: try (by intros ? [? _]).
Qed.

Lemma ready_sext D s s' t : sext s s' -> hwf s -> ready D s t -> ready D s' t.
Proof.
  intros. eapply (ready_mono sext hwf); eauto using sext_blk, sext_hnode'.
Qed.

(** The line of a key. *)
Definition line (D : nat -> kvdata) (h : nat) (x : nat * tree) : nat * bytes := (h - ht (snd x), keyof D (fst x)).

(** The lines printed so far, all of them readable. *)
Definition lines (D : nat -> kvdata) (h : nat) (l : list (nat * tree)) (out : bytes) : Prop :=
  Forall (fun x => utf8 (keyof D (fst x)) = true) l /\ out = printout (map (line D h) l).

Lemma swp_tree_print fuel s m T h (Q : bytes -> st -> Prop) (E : stop -> st -> Prop) :
  rep (core s) m (Some T) -> wft (core s) (length (core s) - 1) h T -> okh s (Some T) -> (length (core s) <= fuel)%nat ->
  (Forall (fun x => utf8 (keyof (kd (core s)) (fst x)) = true) (flatn T) -> forall s', sext s s' -> Q (printout (map (line (kd (core s)) h) (flatn T))) s') ->
  (~ Forall (fun x => utf8 (keyof (kd (core s)) (fst x)) = true) (flatn T) -> forall s', E (SErr EKeyFromUtf8) s') ->
  (faulty (oracle s) -> forall e s', E (SErr e) s') ->
  swp (tree_print fuel) Q E s.
Proof.
  intros Hr HW Hok Hf HQ HE HF.
  assert (forall s', oracle s' `suffix_of` oracle s -> sEok E s') as HE0.
  { intros s' Hx e s2 _ _ Hfl. apply HF. eapply faulty_suffix; [exact Hx|]. by eapply failing_faulty, hit_failing. }
  assert (forall s', sext s s' -> sEok E s') as HE' by (intros s' Hx; apply HE0, (sx_oracle _ _ Hx)).
  pose proof (wft_height _ _ _ _ HW) as Hh. destruct (wf_shape _ _ _ _ HW) as [Hs _].
  assert (2 <= length (core s))%nat by apply Hr.
  unfold tree_print. apply swp_bind. eapply (swp_get_root s _ _ m (Some T)); [done|done|done| |by apply HE', sext_refl].
  intros T' n s1 [= <-] H1 Hn1 _.
  pose proof (okh_sext _ _ _ _ Hr H1 Hok) as Hok1. pose proof (rep_sext _ _ _ _ H1 Hr) as Hr1.
  pose proof (okh_ready _ _ _ Hr1 Hok1) as Hrd1. rewrite (sx_core _ _ H1) in Hrd1.
  apply swp_bind. eapply (swp_node_height _ T h); [apply Hok1|exact Hrd1|done|lia|done| |by apply HE'].
  intros s2 H2 Hw2. assert (sext s s2) as H02 by (by eapply sext_trans).
  pose proof (sx_oracle _ _ H02) as Ho.
  set (D := kd (core s)) in *.
  apply swp_bind. eapply (swp_each D T h (lines D h)); [| |done| |done|apply HW|lia|eapply sext_heap; [exact H2|exact Hn1]| |].
  - intros q u h' k acc l s3 Q3 Hu Hq Hsu Hh' Hw3 Hnf3 Hr3 Hk [Hl ->] HQ3.
    unfold print_line. cbn [fst snd]. apply swp_bind.
    eapply (swp_node_height D u h'); [done|done|done|lia|done| |apply HE0; by etrans].
    intros s4 H4 Hw4. destruct (Nat.ltb_spec (S h) (S h')); [lia|].
    destruct (utf8 (kv_key (D q))) eqn:Eu.
    + apply swp_ret. apply HQ3; [done|done|]. split; [apply Forall_app; split; [done|by constructor]|].
      unfold printout, line. rewrite map_app, !map_app, concat_app. cbn [map concat fst snd]. rewrite (shape_ht _ _ Hsu), app_nil_r.
      cbn [Nat.sub]. rewrite <-?app_assoc. reflexivity.
    + intros s5 _. apply HE. intros Hall.
      assert (q ∈ flat T) as Hin by (by eapply tkeys_flat). rewrite <-map_fst_flatn in Hin.
      apply elem_of_list_fmap in Hin as (x & -> & Hx). rewrite Forall_forall in Hall. specialize (Hall x Hx). unfold keyof in Hall. congruence.
  - intros e u h' k acc s3 Q3 Hfl Hu Hsu Hh' Hw3 Hnf3 Hr3 Hk. apply (faulty_suffix _ _ Ho) in Hfl.
    unfold print_line. cbn [fst snd]. apply swp_bind.
    eapply (swp_node_height D u h'); [done|done|done|lia|done| |apply HE0; by etrans].
    intros s4 H4 Hw4. destruct (Nat.ltb_spec (S h) (S h')); [lia|]. intros s5 _. by apply HF.
  - eapply ready_sext; [exact H2|apply Hok1|done].
  - by split.
  - intros out s3 H3 _ [Hall ->]. apply swp_ret. apply HQ; [done|by eapply sext_trans].
Qed.

(** ** C41 *)
Lemma height_paths fuel l i : history fuel 1 l -> usable l i ->
  let w := world_after fuel l in
  (length (w_core w) <= 1)%nat /\ fst (do_prog (tree_height fuel) i [] w) = inl 0 \/
  exists h T, read_tree (S h) (w_core w) (length (w_core w) - 1, 0) = Some T /\
    fst (do_prog (tree_height fuel) i [] w) = inl (S h) /\ path_lengths T <> [] /\ Forall (fun n => n = S h) (path_lengths T).
Proof.
  intros H Hi. reach H. cbn zeta. set (w := world_after fuel l) in *.
  assert (Hlen : (length (w_core w) <= fuel)%nat) by (destruct Hfit as [Hx _]; unfold with_header in Hx; lia).
  assert (Hp : swp (tree_height fuel) (fun r s' => (t = None /\ r = 0) \/ (exists T h, t = Some T /\ wft (w_core w) (length (w_core w) - 1) h T /\ r = S h))
    (fun _ _ => False) (view w i [])).
  { eapply (swp_tree_height fuel (view w i []) m t); [apply HI|by apply HI|exact Hlen| | |].
    - intros E s' _. by left.
    - intros T h s' E HW _. right. by exists T, h.
    - intros e s' _ _ Hfl. by apply hit_failing, Exists_nil in Hfl. }
  apply rwp_run in Hp. unfold do_prog. destruct (run (tree_height fuel) (view w i [])) as [[r|x] s']; [|done]. cbn [fst].
  destruct Hp as [[E ->]|(T & h & E & HW & ->)].
  - left. rewrite E in HI. split; [|done]. apply (wi_rep _ _ _ _ HI).
  - right. destruct (version_tree _ _ _ _ HW) as (HT & HB & _). destruct (balanced_paths _ _ _ HB) as [B1 B2].
    exists h, (erase (w_core w) T). split_and!; [done|done|done|done].
Qed.

Lemma printed fuel l i : history fuel 1 l -> usable l i ->
  let w := world_after fuel l in
  (length (w_core w) <= 1)%nat /\ fst (do_prog (tree_print fuel) i [] w) = Datatypes.inr (SErr ENoRoot) \/
  exists h T, read_tree (S h) (w_core w) (length (w_core w) - 1, 0) = Some T /\ map snd (listing 0 T) = inorder T /\
    StronglySorted key_lt (inorder T) /\
    (forall k, k ∈ inorder T <-> exists x, fst (do_call fuel i (CGet k) [] w) = inl (RGet (Some x))) /\
    (Forall is_utf8 (inorder T) -> fst (do_prog (tree_print fuel) i [] w) = inl (printout (listing 0 T))) /\
    (~ Forall is_utf8 (inorder T) -> fst (do_prog (tree_print fuel) i [] w) = Datatypes.inr (SErr EKeyFromUtf8)).
Proof.
  intros H Hi. reach H. cbn zeta. set (w := world_after fuel l) in *.
  assert (Hlen : (length (w_core w) <= fuel)%nat) by (destruct Hfit as [Hx _]; unfold with_header in Hx; lia). destruct t as [T|].
  - right. pose proof (wi_rep _ _ _ _ HI) as Hr. pose proof Hr as (H2 & h & HW & Em).
    destruct (version_tree _ _ _ _ HW) as (HT & _ & Hsort & _). exists h, (erase (w_core w) T).
    split_and!; [done|apply map_snd_listing|done|intros k; by eapply stored_keys| |].
    all: intros Hu.
    all: assert (Hiff : Forall is_utf8 (inorder (erase (w_core w) T)) <-> Forall (fun x : nat * tree => utf8 (keyof (kd (w_core w)) (fst x)) = true) (flatn T));
      [rewrite inorder_erase, <-map_fst_flatn, map_map, Forall_fmap; apply Forall_iff; intros x; cbn; symmetry; apply utf8_iff|].
    all: match goal with |- fst (do_prog _ _ _ _) = ?R =>
      assert (Hp : swp (tree_print fuel) (fun r s' => inl r = R) (fun x s' => Datatypes.inr x = R) (view w i [])) end.
    2,4: apply rwp_run in Hp; unfold do_prog; destruct (run (tree_print fuel) (view w i [])) as [[r|x] s']; exact Hp.
    all: eapply (swp_tree_print fuel (view w i []) m T h); [exact Hr|exact HW|by apply HI|exact Hlen| | |by intros Hx%Exists_nil].
    + intros _ s' _. do 2 f_equal. destruct (wf_shape _ _ _ _ HW) as [Hs _]. exact (listing_erase (w_core w) h 0 T Hs).
    + intros Hn. exfalso. apply Hn. by apply Hiff.
    + intros Hn. exfalso. apply Hu. by apply Hiff.
    + by intros _ s'.
  - left. destruct (wi_rep _ _ _ _ HI) as [H1 _]. split; [done|].
    assert (Hp : swp (tree_print fuel) (fun _ _ => False) (fun x _ => x = SErr ENoRoot) (view w i [])).
    { unfold tree_print. apply swp_bind. eapply (swp_get_root _ _ _ m None); [apply HI|by apply HI| |done|].
      - intros _ s1 <-. done.
      - intros e s' _ _ Hfl. by apply hit_failing, Exists_nil in Hfl. }
    apply rwp_run in Hp. unfold do_prog. destruct (run (tree_print fuel) (view w i [])) as [[r|x] s']; [done|]. cbn. by rewrite Hp.
Qed.

(** ** The items a consumer sees are those of the stream *)
Lemma each_loop_trav conf n (rec : nid -> prog stream_result) rec' :
  (forall c acc s, run (rec' c acc) s = run ('(its, b) <- rec c ;; Ret (acc ++ its, b)) s) ->
  forall idxs acc s, run (each_loop (fun x l => Ret (l ++ [x])) rec' conf n idxs acc) s =
    run ('(its, b) <- trav_loop rec conf n idxs ;; Ret (acc ++ its, b)) s.
Proof.
  intros Hrec. induction idxs as [|i idxs IH]; intros acc s; cbn [each_loop trav_loop].
  { cbn. by rewrite app_nil_r. }
  destruct (Nat.even i).
  - rewrite !run_bind. destruct (run (catch (get_child n (Nat.div2 i))) s) as [[[c|e]|x] s1]; [| |done].
    + rewrite !run_bind, Hrec, !run_bind. destruct (run (rec c) s1) as [[[its1 []]|x] s2]; [done| |done].
      cbn [run]. rewrite IH, !run_bind. destruct (run (trav_loop rec conf n idxs) s2) as [[[its2 b2]|x] s3]; [|done].
      cbn. by rewrite app_assoc.
    + rewrite !run_bind. cbn [run]. rewrite IH, run_bind. destruct (run (trav_loop rec conf n idxs) s1) as [[[its2 b2]|x] s3]; [|done].
      cbn. by rewrite <-app_assoc.
  - rewrite !run_bind. destruct (run (catch (get_key_value n (Nat.div2 i))) s) as [[[kv|e]|x] s1]; [| |done].
    + destruct (in_bounds conf (kv_key kv)); [|cbn; by rewrite app_nil_r].
      rewrite !run_bind. cbn [run]. rewrite IH, run_bind. destruct (run (trav_loop rec conf n idxs) s1) as [[[its2 b2]|x] s3]; [|done].
      cbn. by rewrite <-app_assoc.
    + rewrite !run_bind. cbn [run]. rewrite IH, run_bind. destruct (run (trav_loop rec conf n idxs) s1) as [[[its2 b2]|x] s3]; [|done].
      cbn. by rewrite <-app_assoc.
Qed.
Lemma each_trav conf fuel : forall n acc s,
  run (each (fun x l => Ret (l ++ [x])) fuel conf n acc) s = run ('(its, b) <- trav fuel conf n ;; Ret (acc ++ its, b)) s.
Proof.
  induction fuel as [|fuel IH]; intros n acc s; [done|]. cbn [each trav].
  rewrite !run_bind. destruct (run (num_keys n) s) as [[nk|x] s1]; [|done].
  rewrite !run_bind. destruct (run (num_children n) s1) as [[nc|x] s2]; [|done].
  rewrite !run_bind. destruct (run (catch _) s2) as [[[it|e]|x] s3]; [|done|done].
  by rewrite (each_loop_trav _ _ (trav fuel conf)), run_bind.
Qed.
Lemma each_is_trav fuel conf n s : run (each (fun x l => Ret (l ++ [x])) fuel conf n []) s = run (trav fuel conf n) s.
Proof. rewrite each_trav, run_bind. by destruct (run (trav fuel conf n) s) as [[[its b]|x] s']. Qed.

(** ** Faults *)
Lemma print_faults fuel l i o : history fuel 1 l -> usable l i ->
  let w := world_after fuel l in
  match fst (do_prog (tree_print fuel) i o w) with
  | inl out => fst (do_prog (tree_print fuel) i [] w) = inl out
  | Datatypes.inr x => exists e, x = SErr e
  end.
Proof.
  intros H Hi. pose proof (printed fuel l i H Hi) as HP. reach H. cbn zeta in *. set (w := world_after fuel l) in *.
  assert (Hlen : (length (w_core w) <= fuel)%nat) by (destruct Hfit as [Hx _]; unfold with_header in Hx; lia). destruct t as [T|].
  - pose proof (wi_rep _ _ _ _ HI) as Hr. pose proof Hr as (H2 & h & HW & Em). destruct HP as [[? _]|_]; [lia|].
    assert (Hp : forall o, swp (tree_print fuel) (fun r _ => r = printout (map (line (kd (w_core w)) h) (flatn T)) /\ Forall (fun x : nat * tree => utf8 (keyof (kd (w_core w)) (fst x)) = true) (flatn T))
      (fun x _ => exists e, x = SErr e /\ (o = [] -> ~ Forall (fun x : nat * tree => utf8 (keyof (kd (w_core w)) (fst x)) = true) (flatn T))) (view w i o)).
    { intros o'. eapply (swp_tree_print fuel (view w i o') m T h); [exact Hr|exact HW|by apply HI|exact Hlen|by split| |].
      - intros Hn s'. by eexists.
      - intros Hx e s'. exists e. split; [done|]. intros ->. by apply Exists_nil in Hx. }
    pose proof (Hp o) as H1. pose proof (Hp []) as H0. apply rwp_run in H1, H0. unfold do_prog.
    destruct (run (tree_print fuel) (view w i o)) as [[r|x] s1], (run (tree_print fuel) (view w i [])) as [[r'|x'] s2]; cbn [fst].
    + by destruct H1 as [-> _], H0 as [-> _].
    + destruct H1 as [_ Hu], H0 as (e & _ & Hn). by destruct (Hn eq_refl).
    + destruct H1 as (e & -> & _). by eexists.
    + destruct H1 as (e & -> & _). by eexists.
  - assert (Hp : swp (tree_print fuel) (fun _ _ => False) (fun x _ => exists e, x = SErr e) (view w i o)).
    { unfold tree_print. apply swp_bind. eapply (swp_get_root _ _ _ m None); [apply HI|by apply HI| |done|].
      - intros _ s1 <-. by eexists.
      - intros e s' _ _ Hfl. by eexists. }
    apply rwp_run in Hp. unfold do_prog. by destruct (run (tree_print fuel) (view w i o)) as [[r|x] s'].
Qed.
Lemma height_faults fuel l i o : history fuel 1 l -> usable l i ->
  let w := world_after fuel l in
  match fst (do_prog (tree_height fuel) i o w) with
  | inl h => fst (do_prog (tree_height fuel) i [] w) = inl h
  | Datatypes.inr x => exists e, x = SErr e
  end.
Proof.
  intros H Hi. reach H. cbn zeta. set (w := world_after fuel l) in *.
  assert (Hlen : (length (w_core w) <= fuel)%nat) by (destruct Hfit as [Hx _]; unfold with_header in Hx; lia).
  assert (Hp : forall o, swp (tree_height fuel) (fun r _ => r = match t with None => 0 | Some T => S (ht T) end)
    (fun x _ => exists e, x = SErr e /\ o <> []) (view w i o)).
  { intros o'. eapply (swp_tree_height fuel (view w i o') m t); [apply HI|by apply HI|exact Hlen| | |].
    - by intros -> s' _.
    - intros T h s' -> HW _. destruct (wf_shape _ _ _ _ HW) as [Hs _]. by rewrite (shape_ht _ _ Hs).
    - intros e s' _ _ Hfl. exists e. split; [done|]. intros ->. by apply hit_failing, Exists_nil in Hfl. }
  pose proof (Hp o) as H1. pose proof (Hp []) as H0. apply rwp_run in H1, H0. unfold do_prog.
  destruct (run (tree_height fuel) (view w i o)) as [[r|x] s1]; cbn [fst].
  - destruct (run (tree_height fuel) (view w i [])) as [[r'|x'] s2]; cbn [fst]; [by subst|]. by destruct H0 as (e & _ & ?).
  - destruct H1 as (e & -> & _). by eexists.
Qed.
Lemma debug_faults fuel l i o : history fuel 1 l -> usable l i ->
  let w := world_after fuel l in
  match fst (do_prog (tree_height fuel) i o w) with
  | inl h => fst (do_prog (tree_height fuel) i [] w) = inl h
  | Datatypes.inr x => exists e, x = SErr e
  end /\
  match fst (do_prog (tree_print fuel) i o w) with
  | inl out => fst (do_prog (tree_print fuel) i [] w) = inl out
  | Datatypes.inr x => exists e, x = SErr e
  end.
Proof. intros H Hi. split; [by apply height_faults|by apply print_faults]. Qed.

(** A tree of [S h] levels holds fewer than [9 ^ S h] keys. *)
Lemma interleave_room {A} b : forall (cs : list (list A)) ks, Forall (fun c => S (length c) <= b)%nat cs -> length cs = S (length ks) ->
  (S (length (interleave cs ks)) <= S (length ks) * b)%nat.
Proof.
  induction cs as [|c cs IH]; intros ks Hc Hl; [done|]. apply Forall_cons in Hc as [Hc Hcs]. destruct ks as [|k ks]; cbn [interleave].
  - destruct cs; [|done]. cbn [concat length]. rewrite app_nil_r. lia.
  - cbn [length] in Hl. specialize (IH ks Hcs ltac:(lia)). rewrite app_length. cbn [length]. lia.
Qed.
Lemma balanced_room h : forall root t, balanced root h t -> (S (length (inorder t)) <= 9 ^ S h)%nat.
Proof.
  induction h as [|h IH]; intros root [ks ts]; cbn [balanced inorder].
  - intros (H1 & _ & ->). cbn [map interleave]. rewrite Nat.pow_1_r. lia.
  - intros (H1 & _ & _ & H3 & H4). rewrite Nat.pow_succ_r'.
    etrans; [apply (interleave_room (9 ^ S h))|apply Nat.mul_le_mono_r; lia].
    + apply Forall_fmap. eapply Forall_impl; [exact H4|]. intros t Ht. by eapply IH.
    + by rewrite map_length.
Qed.

Lemma height_entries fuel l i j : history fuel 1 l -> usable l i -> usable l j ->
  let w := world_after fuel l in (2 <= length (w_core w))%nat ->
  exists h es, fst (do_prog (tree_height fuel) i [] w) = inl (S h) /\
    fst (do_call fuel j (CTraverse default_config) [] w) = inl (RItems (map IOk es) false) /\
    (h = 0 \/ 2 * 5 ^ h <= S (length es))%nat /\ (S (length es) <= 9 ^ S h)%nat.
Proof.
  intros H Hi Hj. cbn zeta. intros H2. reach H. set (w := world_after fuel l) in *.
  assert (Hlen : (length (w_core w) <= fuel)%nat) by (destruct Hfit as [Hx _]; unfold with_header in Hx; lia).
  assert (Hp : swp (tree_height fuel) (fun r s' => (t = None /\ r = 0) \/ (exists T h, t = Some T /\ wft (w_core w) (length (w_core w) - 1) h T /\ r = S h))
    (fun _ _ => False) (view w i [])).
  { eapply (swp_tree_height fuel (view w i []) m t); [apply HI|by apply HI|exact Hlen| | |].
    - intros E s' _. by left.
    - intros T h s' E HW _. right. by exists T, h.
    - intros e s' _ _ Hfl. by apply hit_failing, Exists_nil in Hfl. }
  apply rwp_run in Hp. unfold do_prog. destruct (run (tree_height fuel) (view w i [])) as [[r|x] s']; [|done]. cbn [fst].
  destruct Hp as [[E ->]|(T & h & E & HW & ->)]; [rewrite E in HI; destruct (wi_rep _ _ _ _ HI); lia|].
  destruct (call_clean _ _ _ _ _ _ j (CTraverse default_config) HI Hj Hfit) as (w1 & D1 & _ & _); [by right|].
  assert (range default_config m = m) as Er.
  { unfold range, in_order. cbn [t_rev default_config]. clear. induction m as [|e m IH]; [done|]. cbn [List.filter]. by rewrite IH. }
  destruct (version_tree _ _ _ _ HW) as (_ & HB & _ & HS).
  rewrite E in HI. destruct (wi_rep _ _ _ _ HI) as (_ & h' & HW' & Em).
  assert (length m = length (inorder (erase (w_core w) T))) as El by (rewrite Em, inorder_erase, !map_length; done).
  exists h, m. split_and!; [done| | |].
  - rewrite D1. cbn [spec_call s_blocks s_entries fst]. rewrite Er. destruct (Nat.leb_spec (length (w_core w)) 1); [lia|done].
  - rewrite El. destruct HS; [by left|right; lia].
  - rewrite El. by eapply balanced_room.
Qed.
