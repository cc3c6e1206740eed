(** Subs. *)
From Coq.Strings Require Import Byte.
From Coq Require Import Lia Sorting.Sorted.
From stdpp Require Import prelude gmap.
From Verif Require Import Bytes Codec Model CodecProofs Order Wp Store Tree Iter Read Zip Pure Seq Mut MutDel MutTop Commit Spec OrderProofs Client Abs Api Call Det Hist Main Subs.

(** ** C16 *)
Lemma sub_is_parent fuel i pre sep c p o w : on_parent pre sep c = Some p ->
  do_sub fuel i pre sep c o w = do_call fuel i p o w.
Proof. destruct c; intros [= <-]; reflexivity. Qed.

Lemma app_starts p x : starts p (p ++ x) = true.
Proof. unfold starts. apply bool_decide_eq_true_2. by rewrite take_app. Qed.
Lemma starts_app p x : starts p x = true <-> exists r, x = p ++ r.
Proof.
  split.
  - intros H%bool_decide_eq_true_1. exists (drop (length p) x). by rewrite <-H at 1; rewrite take_drop.
  - intros [r ->]. apply app_starts.
Qed.

Lemma starts_refl p : starts p p = true.
Proof. apply starts_app. exists []. by rewrite app_nil_r. Qed.

Lemma sub_leaves_others fuel l i j pre sep c p k : history fuel 2 l -> usable l i -> usable l j ->
  on_parent pre sep c = Some p -> call_ok p -> starts (pre ++ sep) k = false ->
  exists r x w1, do_sub fuel i pre sep c [] (world_after fuel l) = (inl r, w1) /\
    fst (do_call fuel j (CGet k) [] (world_after fuel l)) = inl (RGet x) /\
    fst (do_call fuel j (CGet k) [] w1) = inl (RGet x).
Proof.
  intros H Hi Hj Hp Hc Hk. rewrite (sub_is_parent _ _ _ _ _ _ _ _ Hp). reach H.
  destruct (call_clean _ _ _ _ fuel 1 i p HI Hi Hfit Hc) as (w1 & D1 & (t1 & He & HI1 & Hl1) & Hfit1).
  destruct (call_clean _ _ _ _ fuel 1 j (CGet k) HI Hj Hfit I) as (w2 & D2 & _).
  destruct (call_clean _ _ _ _ fuel 0 j (CGet k) HI1 Hj Hfit1 I) as (w3 & D3 & _).
  eexists _, _, w1. split_and!; [exact D1|rewrite D2; reflexivity|rewrite D3; cbn [fst]; apply (f_equal (fun z => inl (RGet ((fun e => (kv_seq e, kv_value e)) <$> z))))].
  assert (forall a, k <> pre ++ sep ++ a) as Hne.
  { intros a ->. rewrite app_assoc, app_starts in Hk. done. }
  destruct c as [a|a v|a v f|a|a f|conf]; [injection Hp as <-..|discriminate Hp].
  - done.
  - apply (lookup_put_other _ m), Hne.
  - unfold spec_call, spec_put. destruct (f _ _); [apply (lookup_put_other _ m), Hne|done].
  - unfold spec_call, spec_del. cbn [s_entries]. destruct (lookup_key _ m); [apply (lookup_remove_other _ _ m), Hne|done].
  - unfold spec_call, spec_del. cbn [s_entries]. destruct (lookup_key _ m) as [e|]; [destruct (f e)|]; [apply (lookup_remove_other _ _ m), Hne|done|done].
Qed.

(** ** C17 *)
Lemma subs_apart (s : byte) p p' k k' : s ∉ p -> s ∉ p' -> p ++ [s] ++ k = p' ++ [s] ++ k' -> p = p' /\ k = k'.
Proof.
  revert p'. induction p as [|x p IH]; intros [|y p'] H H' E; cbn in *.
  - by injection E.
  - injection E as -> _. exfalso. apply H'. by left.
  - injection E as -> _. exfalso. apply H. by left.
  - injection E as -> E. destruct (IH p') as [-> ->]; [| |done|done]; intros Hx; [apply H|apply H']; by right.
Qed.

Lemma subs_independent fuel l i j (s : byte) p p' c q k : history fuel 2 l -> usable l i -> usable l j ->
  s ∉ p -> s ∉ p' -> p <> p' -> on_parent p [s] c = Some q -> call_ok q ->
  exists r x w1, do_sub fuel i p [s] c [] (world_after fuel l) = (inl r, w1) /\
    fst (do_sub fuel j p' [s] (SGet k) [] (world_after fuel l)) = inl (RGet x) /\
    fst (do_sub fuel j p' [s] (SGet k) [] w1) = inl (RGet x).
Proof.
  intros H Hi Hj H1 H2 Hne Hq Hc. assert (starts (p ++ [s]) (p' ++ [s] ++ k) = false) as Hs.
  { apply not_true_iff_false. intros [r E]%starts_app. rewrite <-app_assoc in E. symmetry in E.
    by destruct (subs_apart s p p' r k H1 H2 E). }
  destruct (sub_leaves_others fuel l i j p [s] c q _ H Hi Hj Hq Hc Hs) as (r & x & w1 & E1 & E2 & E3).
  exists r, x, w1. split_and!; [done|by rewrite (sub_is_parent _ _ _ _ (SGet k) _ _ _ eq_refl)..].
Qed.

(** ** C18 *)
Lemma lexb_app p a b : lexb (p ++ a) (p ++ b) = lexb a b.
Proof.
  induction p as [|x p IH]; [done|]. cbn. rewrite N.ltb_irrefl, bool_decide_eq_true_2 by done. cbn. done.
Qed.
Lemma lexb_irrefl a : lexb a a = false.
Proof. induction a as [|x a IH]; [done|]. cbn. by rewrite N.ltb_irrefl, IH, andb_false_r. Qed.

Definition leb (a b : bytes) : bool := lexb a b || bool_decide (a = b).
Lemma leb_cons x a y b : leb (x :: a) (y :: b) = true -> (Byte.to_N x < Byte.to_N y)%N \/ x = y /\ leb a b = true.
Proof.
  unfold leb. cbn. intros [[H|[H1 H2]%andb_true_iff]%orb_true_iff|H]%orb_true_iff.
  - left. by apply N.ltb_lt.
  - right. apply bool_decide_eq_true_1 in H1. split; [done|]. by rewrite H2.
  - apply bool_decide_eq_true_1 in H. injection H as -> ->. right. split; [done|]. rewrite bool_decide_eq_true_2 by done. by rewrite orb_true_r.
Qed.

(** Between two keys with a common prefix all keys have it. *)
Lemma between p a x b : leb (p ++ a) x = true -> leb x (p ++ b) = true -> starts p x = true.
Proof.
  intros H1 H2. apply starts_app. revert x H1 H2. induction p as [|c p IH]; intros x H1 H2; [by exists x|].
  destruct x as [|y x]; [done|]. cbn [app] in H1, H2.
  apply leb_cons in H1 as [H1|[-> H1]]; apply leb_cons in H2 as [H2|[E H2]]; subst; try lia.
  destruct (IH x H1 H2) as [r ->]. by exists r.
Qed.

Lemma increment_bytes_spec q c : (Byte.to_N c < 255)%N -> increment_bytes (q ++ [c]) = q ++ [byte_of (Byte.to_N c + 1)].
Proof.
  intros Hc. unfold increment_bytes. rewrite last_snoc. destruct (N.eqb_spec (Byte.to_N c) 255); [lia|].
  rewrite app_length. cbn [length]. replace (length q + 1 - 1)%nat with (length q) by lia. by rewrite take_app.
Qed.

Lemma to_N_ff c : c <> xff -> (Byte.to_N c < 255)%N.
Proof. intros H. pose proof (Byte.to_N_bounded c). destruct (decide (Byte.to_N c = 255%N)) as [E|]; [|lia]. by destruct c. Qed.

Lemma before_increment pre x : pre <> [] -> last pre <> Some xff ->
  (leb pre x && lexb x (increment_bytes pre) = starts pre x)%bool.
Proof.
  intros H1 H2. destruct pre as [|c q _] using rev_ind; [done|]. rewrite last_snoc in H2.
  assert (Byte.to_N c < 255)%N as Hc by (apply to_N_ff; congruence). rewrite increment_bytes_spec by done.
  apply eq_true_iff_eq. rewrite andb_true_iff. split.
  - intros [Ha Hb]. apply starts_app. clear H1 H2. revert x Ha Hb. induction q as [|d q IH]; intros x Ha Hb.
    + destruct x as [|y x]; [done|]. apply leb_cons in Ha. cbn [app lexb] in Hb.
      rewrite to_N_byte_of in Hb by lia. destruct Ha as [Ha|[-> _]]; [|by exists x].
      exfalso. apply orb_true_iff in Hb as [Hb|[_ Hb]%andb_true_iff]; [apply N.ltb_lt in Hb; lia|].
      by destruct x.
    + destruct x as [|y x]; [done|]. cbn [app] in Ha, Hb. apply leb_cons in Ha. cbn [lexb] in Hb.
      apply orb_true_iff in Hb as [Hb|[Hb1 Hb2]%andb_true_iff].
      * apply N.ltb_lt in Hb. destruct Ha as [Ha|[-> _]]; lia.
      * apply bool_decide_eq_true_1 in Hb1. subst y. destruct Ha as [Ha|[_ Ha]]; [lia|].
        destruct (IH x Ha Hb2) as [r ->]. by exists r.
  - intros [r ->]%starts_app. split.
    + unfold leb. destruct r as [|z r].
      * rewrite app_nil_r, bool_decide_eq_true_2 by done. apply orb_true_r.
      * assert (lexb ((q ++ [c]) ++ []) ((q ++ [c]) ++ z :: r) = true) as E by (by rewrite lexb_app).
        rewrite app_nil_r in E. by rewrite E.
    + rewrite <-app_assoc, lexb_app. cbn. rewrite to_N_byte_of by lia.
      assert ((Byte.to_N c <? Byte.to_N c + 1)%N = true) as -> by (apply N.ltb_lt; lia). done.
Qed.

Lemma leb_ble a b : leb a b = true <-> a = b \/ blt a b.
Proof.
  unfold leb. rewrite orb_true_iff, lexb_blt, bool_decide_eq_true. naive_solver.
Qed.
Lemma leb_trans a b c : leb a b = true -> leb b c = true -> leb a c = true.
Proof. rewrite !leb_ble. intros [->|H1] [->|H2]; eauto using blt_trans. Qed.
Lemma leb_app p a : leb p (p ++ a) = true.
Proof.
  apply leb_ble. destruct a as [|x a]; [left; by rewrite app_nil_r|right]. apply lexb_blt.
  rewrite <-(app_nil_r p) at 1. by rewrite lexb_app.
Qed.
Lemma lexb_app_nonempty p a : a <> [] -> lexb p (p ++ a) = true.
Proof. intros H. rewrite <-(app_nil_r p) at 1. rewrite lexb_app. by destruct a. Qed.
Lemma lexb_leb a b : lexb a b = true -> leb a b = true.
Proof. unfold leb. by intros ->. Qed.

Lemma sub_config_ok pre sep conf m : sub_bounds_ok pre sep conf m -> bounds_ok (sub_config pre sep conf).
Proof.
  intros (Hsep & Hok & Hmin & Hmax & Hup & _). unfold bounds_ok, sub_config, below_max, prefix_key in *.
  destruct conf as [mn mni mx mxi rv]. cbn in *. destruct rv; [left; by destruct mn, mx|right].
  destruct Hok as [|Hok]; [done|].
  destruct mn as [a| |], mx as [b| |]; cbn in *; try done.
  - intros Hi. specialize (Hok Hi). rewrite !app_assoc, lexb_app.
    apply orb_true_iff in Hok as [->|[-> Hab]%andb_true_iff]; [done|]. apply bool_decide_eq_true_1 in Hab. subst b.
    rewrite bool_decide_eq_true_2 by done. by rewrite orb_true_r.
  - intros _. destruct (Hup eq_refl) as [H1 H2]. pose proof (before_increment pre (pre ++ sep ++ a) H1 H2) as E.
    rewrite app_starts in E. apply andb_true_iff in E as [_ ->]. done.
  - intros _. rewrite lexb_app_nonempty; [done|]. by destruct sep.
  - intros _. destruct (Hup eq_refl) as [H1 H2]. pose proof (before_increment pre pre H1 H2) as E.
    rewrite starts_refl in E. apply andb_true_iff in E as [_ ->]. done.
Qed.

Lemma sub_within pre sep conf m e : sub_bounds_ok pre sep conf m -> e ∈ m ->
  within (sub_config pre sep conf) e =
  (starts (pre ++ sep) (kv_key e) && within conf (strip (length pre + length sep) e))%bool.
Proof.
  intros (Hsep & Hok & Hmin & Hmax & Hup & Hfor) He. unfold within, strip. destruct e as [q x v]. cbn [kv_key].
  destruct (starts (pre ++ sep) x) eqn:Hs; cbn [andb].
  - apply starts_app in Hs as [r ->]. rewrite <-app_length, drop_app.
    unfold sub_config, above_min, below_max, prefix_key. destruct conf as [mn mni mx mxi rv]. cbn in *.
    assert (forall a, bool_decide (pre ++ sep ++ a = (pre ++ sep) ++ r) = bool_decide (a = r)) as Ed.
    { intros a. apply bool_decide_ext. rewrite app_assoc. split; [by intros ?%app_inv_head|by intros ->]. }
    f_equal.
    + destruct mn as [a| |]; [|done|]; destruct mx as [b| |]; cbn; rewrite ?Ed, ?app_assoc, ?lexb_app; try done.
      all: rewrite <-app_assoc; apply (leb_app pre).
    + assert (mx = PosInf -> lexb ((pre ++ sep) ++ r) (increment_bytes pre) = true) as Hinc.
      { intros E. destruct (Hup E) as [H1 H2]. pose proof (before_increment pre (pre ++ sep ++ r) H1 H2) as E1.
        rewrite app_starts in E1. apply andb_true_iff in E1 as [_ E1]. by rewrite <-app_assoc. }
      destruct mn as [a| |], mx as [b| |]; cbn; rewrite ?Ed, ?(app_assoc pre sep), ?lexb_app; try done; by rewrite Hinc.
  - apply not_true_iff_false. intros [HL HU]%andb_true_iff. apply not_true_iff_false in Hs. apply Hs.
    unfold sub_config, above_min, below_max, prefix_key in HL, HU. destruct conf as [mn mni mx mxi rv]. cbn in *.
    assert (forall a b i, lexb a b || i && bool_decide (a = b) = true -> leb a b = true) as L1.
    { intros a b i. unfold leb. destruct (lexb a b); [done|]. by intros [_ ->]%andb_true_iff. }
    assert (forall a b i, lexb a b || i && bool_decide (b = a) = true -> leb a b = true) as L2.
    { intros a b i. unfold leb. destruct (lexb a b); [done|]. intros [_ Hd]%andb_true_iff. apply bool_decide_eq_true_1 in Hd. by apply bool_decide_eq_true_2. }
    destruct mn as [a| |]; [|done|]; (destruct mx as [b| |]; [| |done]); cbn in *; [apply L1 in HL|apply L1 in HL|change (leb pre x = true) in HL|change (leb pre x = true) in HL].
    + apply L2 in HU. rewrite app_assoc in HL, HU. by eapply between.
    + destruct (Hup eq_refl) as [H1 H2]. apply (Hfor (or_intror eq_refl) _ He). cbn.
      rewrite orb_false_r in HU. rewrite <-before_increment, HU by done. rewrite andb_true_r.
      eapply leb_trans; [|exact HL]. apply leb_app.
    + apply L2 in HU. apply (Hfor (or_introl eq_refl) _ He). cbn. rewrite <-(app_nil_r pre) in HL. by eapply between.
    + destruct (Hup eq_refl) as [H1 H2]. apply (Hfor (or_intror eq_refl) _ He). cbn.
      rewrite orb_false_r in HU. rewrite <-before_increment, HU by done. by rewrite andb_true_r.
Qed.

Lemma strip_items_ok pre sep es : (forall e, e ∈ es -> starts (pre ++ sep) (kv_key e) = true) ->
  strip_items (length pre + length sep) (map IOk es) false = (map IOk (map (strip (length pre + length sep)) es), false).
Proof.
  induction es as [|e es IH]; intros H; [done|]. cbn [map strip_items].
  assert ((length pre + length sep <=? length (kv_key e))%nat = true) as ->.
  { destruct (proj1 (starts_app _ _) (H e (elem_of_list_here _ _))) as [r ->]. apply Nat.leb_le. rewrite !app_length. lia. }
  rewrite IH; [done|]. intros x Hx. apply H. by right.
Qed.

Lemma filter_ext_in {A} (f g : A -> bool) l : (forall x, x ∈ l -> f x = g x) -> List.filter f l = List.filter g l.
Proof.
  induction l as [|x l IH]; intros H; [done|]. cbn. rewrite (H x) by by left. rewrite IH; [done|]. intros y Hy. apply H. by right.
Qed.
Lemma filter_map {A B} (f : B -> bool) (g : A -> B) l : List.filter f (map g l) = map g (List.filter (fun x => f (g x)) l).
Proof. induction l as [|x l IH]; [done|]. cbn. rewrite IH. by destruct (f (g x)). Qed.
Lemma filter_filter_and {A} (f g : A -> bool) l : List.filter f (List.filter g l) = List.filter (fun x => g x && f x) l.
Proof. induction l as [|x l IH]; [done|]. cbn. destruct (g x); cbn; by rewrite IH. Qed.

Lemma sub_range pre sep conf m : sub_bounds_ok pre sep conf m ->
  map (strip (length pre + length sep)) (range (sub_config pre sep conf) m) = range conf (sub_entries pre sep m).
Proof.
  intros H. unfold range, sub_entries, in_order. rewrite filter_map, filter_filter_and.
  rewrite (filter_ext_in _ (fun e => starts (pre ++ sep) (kv_key e) && within conf (strip (length pre + length sep) e)) m)
    by (intros e He; by eapply sub_within).
  assert (t_rev (sub_config pre sep conf) = t_rev conf) as -> by (unfold sub_config; by destruct (t_min conf), (t_max conf)).
  destruct (t_rev conf); [by rewrite map_rev|done].
Qed.

(** A traversal through a sub in terms of the one on the parent, whatever happens. *)
Lemma sub_traverse_is fuel i pre sep conf o w :
  do_sub fuel i pre sep (STraverse conf) o w =
  match do_call fuel i (CTraverse (sub_config pre sep conf)) o w with
  | (inl (RItems its b), w1) =>
      let '(its', b') := strip_items (length pre + length sep) its b in (inl (RItems its' b'), w1)
  | x => x
  end.
Proof.
  unfold do_sub, do_call, sub_api, api, sub_prog. cbn [call_prog]. unfold sub_traverse. rewrite !run_bind, !run_catch, !run_bind.
  destruct (run (tree_traverse _ _) _) as [[[its b]|e] s1]; cbn.
  - by destruct (strip_items _ its b).
  - by destruct e.
Qed.

Lemma sub_traversal fuel l i pre sep conf : history fuel 1 l -> usable l i ->
  exists rs b, play fuel l (new_world []) = (rs, world_after fuel l) /\ explains l empty_store rs b /\
    (sub_bounds_ok pre sep conf (s_entries b) ->
     fst (do_sub fuel i pre sep (STraverse conf) [] (world_after fuel l)) =
     inl (if (s_blocks b <=? 1)%nat then RErr ENoRoot
          else RItems (map IOk (range conf (sub_entries pre sep (s_entries b)))) false)).
Proof.
  intros H Hi. reach H. exists rs, (Store N m). split_and!; [done|done|]. intros Hb. cbn [s_entries] in Hb.
  destruct (call_clean _ _ _ _ _ _ i (CTraverse (sub_config pre sep conf)) HI Hi Hfit (sub_config_ok _ _ _ _ Hb)) as (w1 & D1 & _ & _).
  rewrite sub_traverse_is, D1. cbn [spec_call s_blocks s_entries].
  subst N. destruct (Nat.leb_spec (length (w_core (world_after fuel l))) 1); [done|]. cbn [fst].
  rewrite strip_items_ok; [cbn [fst]; by rewrite sub_range|].
  intros e He. unfold range, in_order in He.
  assert (e ∈ List.filter (within (sub_config pre sep conf)) m) as [H1 H2]%elem_of_list_In%filter_In.
  { destruct (t_rev _); [|done]. rewrite elem_of_list_In in *. by apply in_rev. }
  rewrite (sub_within _ _ _ m) in H2; [|done|by apply elem_of_list_In]. by apply andb_true_iff in H2 as [? _].
Qed.
