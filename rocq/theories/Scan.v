(** How many blocks a traversal reads. *)
From Coq.Strings Require Import Byte.
From Coq Require Import Lia Sorting.Sorted.
From stdpp Require Import prelude gmap.
From Verif Require Import Bytes Codec Model CodecProofs Order Wp Store Tree Iter Read Zip Pure Seq Mut MutDel MutTop Commit Spec OrderProofs Client Abs Api Call Det Hist Main Count CountProofs Shape Utf8 PrintProofs.

(** ** Neighbours among the indices to visit *)
Definition adj (l : list nat) : Prop := forall l1 i j l2, l = l1 ++ i :: j :: l2 -> Nat.even i && Nat.even j = false.

Lemma adj_tail i l : adj (i :: l) -> adj l.
Proof. intros H l1 a b l2 ->. apply (H (i :: l1) a b l2). done. Qed.
Lemma adj_rev l : adj l -> adj (rev l).
Proof.
  intros H l1 i j l2 E. assert (l = rev l2 ++ j :: i :: rev l1) as E'.
  { rewrite <-(rev_involutive l), E, rev_app_distr. cbn [rev]. by rewrite <-!app_assoc. }
  rewrite andb_comm. apply (H _ _ _ _ E').
Qed.
Lemma adj_range f : forall a b, adj (range_step f a b 1).
Proof.
  induction f as [|f IH]; intros a b l1 i j l2 E; cbn [range_step] in E; [by destruct l1|].
  destruct (a <? b)%nat; [|by destruct l1]. destruct l1 as [|x l1]; simplify_eq/=.
  - destruct f as [|f]; cbn [range_step] in *; [done|]. destruct (i + 1 <? b)%nat; [|done]. simplify_eq/=.
    rewrite Nat.add_1_r, Nat.even_succ, <-Nat.negb_even. apply andb_negb_r.
  - by eapply IH.
Qed.
Lemma adj_iter conf nk nc m index : nc <> 0 -> adj (iter_indices conf nk nc m index).
Proof.
  intros H. unfold iter_indices. cbv zeta. destruct (Nat.eqb_spec nc 0) as [|_]; [done|].
  destruct (if m then _ else _) as [start|]; [|by intros [|? ?] ? ? ? ?].
  destruct (negb (t_rev conf)); [|apply adj_rev]; apply adj_range.
Qed.

(** ** Directions *)
Lemma near_mono conf x y : near conf x = true -> further conf x y -> near conf y = true.
Proof.
  unfold near, further. destruct (t_rev conf); intros Hn Hf.
  - assert (limit_cmp (t_max conf) x <> Lt) as Hm by (intros E; by rewrite E in Hn). by rewrite (limit_cmp_mono_gt _ _ _ Hm Hf).
  - assert (limit_cmp (t_min conf) x <> Gt) as Hm by (intros E; by rewrite E in Hn). by rewrite (limit_cmp_mono_lt _ _ _ Hm Hf).
Qed.
Lemma rng_mono conf x y : near conf x = true -> rng conf x = false -> further conf x y -> rng conf y = false.
Proof. intros Hn Hr. apply near_further; [done|]. by rewrite near_in_bounds. Qed.

(** ** The edges of the range *)
Section edges.
  Context (D : nat -> kvdata) (conf : config).
  Definition early (l : list (nat * tree)) : bool := existsb (fun x => negb (near conf (nkey D x))) l.
  Definition late (l : list (nat * tree)) : bool := existsb (fun x => near conf (nkey D x) && negb (inr D conf x)) l.
  Definition b1 (b : bool) : nat := if b then 1 else 0.
  Definition cut (l : list (nat * tree)) : nat := b1 (early l) + b1 (late l).

  Lemma early_app l l' : early (l ++ l') = early l || early l'.
  Proof. apply existsb_app. Qed.
  Lemma late_app l l' : late (l ++ l') = late l || late l'.
  Proof. apply existsb_app. Qed.
  Lemma early_false l : early l = false <-> forall x, x ∈ l -> near conf (nkey D x) = true.
  Proof.
    unfold early. induction l as [|x l IH]; cbn [existsb]; [split; [by intros _ ? ?%elem_of_nil|done]|].
    rewrite orb_false_iff, IH, negb_false_iff. split.
    - intros [H1 H2] y [->|Hy]%elem_of_cons; auto.
    - intros H. split; [apply H; left|]. intros y Hy. apply H. by right.
  Qed.
  Lemma late_true l : late l = true -> exists x, x ∈ l /\ near conf (nkey D x) = true /\ inr D conf x = false.
  Proof.
    unfold late. intros (x & Hx & E)%existsb_exists. apply andb_true_iff in E as [E1 E2]. exists x.
    rewrite elem_of_list_In. split_and!; [done|done|by apply negb_true_iff].
  Qed.
  Lemma cut_zero l : cut l = 0 -> List.filter (inr D conf) l = l.
  Proof.
    unfold cut, b1. destruct (early l) eqn:E1; [lia|]. destruct (late l) eqn:E2; [lia|]. intros _.
    rewrite early_false in E1. induction l as [|x l IH]; [done|]. cbn [List.filter].
    unfold late in E2. cbn [existsb] in E2. apply orb_false_iff in E2 as [E2 E3].
    rewrite (E1 x) in E2 by left. cbn [andb] in E2. apply negb_false_iff in E2. rewrite E2. f_equal. apply IH; [|done].
    intros y Hy. apply E1. by right.
  Qed.
  Lemma cut_sub l l' : (forall x, x ∈ l -> x ∈ l') -> (cut l <= cut l')%nat.
  Proof.
    intros H. unfold cut, b1. assert (early l = true -> early l' = true).
    { unfold early. rewrite !existsb_exists. intros (x & Hx & E). exists x. rewrite <-elem_of_list_In in *. auto. }
    assert (late l = true -> late l' = true).
    { unfold late. rewrite !existsb_exists. intros (x & Hx & E). exists x. rewrite <-elem_of_list_In in *. auto. }
    destruct (early l), (late l), (early l'), (late l'); intuition (congruence || lia).
  Qed.
  Lemma late_sub l l' : (forall x, x ∈ l -> x ∈ l') -> (b1 (late l) <= b1 (late l'))%nat.
  Proof.
    intros H. unfold b1. assert (late l = true -> late l' = true).
    { unfold late. rewrite !existsb_exists. intros (x & Hx & E). exists x. rewrite <-elem_of_list_In in *. auto. }
    destruct (late l), (late l'); intuition (congruence || lia).
  Qed.

  Definition segs (u : tree) (idxs : list nat) : list (nat * tree) := concat (map (segl u) idxs).
  Fixpoint weight (u : tree) (idxs : list nat) : nat :=
    match idxs with
    | [] => 0
    | i :: idxs' => (if Nat.even i then 4 else 2) * length (expect_at D conf u i) + weight u idxs'
    end.
  Definition heads (idxs : list nat) : nat := match idxs with i :: _ => b1 (Nat.even i) | [] => 0 end.

  Lemma elem_of_segs u idxs x : x ∈ segs u idxs <-> exists i, i ∈ idxs /\ x ∈ segl u i.
  Proof.
    unfold segs. induction idxs as [|i l IH]; cbn [map concat].
    - split; [by intros ?%elem_of_nil|by intros (? & ?%elem_of_nil & _)].
    - rewrite elem_of_app, IH. split.
      + intros [H|(j & Hj & H)]; [exists i; split; [left|done]|exists j; split; [by right|done]].
      + intros (j & [->|Hj]%elem_of_cons & H); [by left|right; by exists j].
  Qed.
End edges.

(** ** One node *)
Lemma fine_sext s s' : sext s s' -> ~ faulty (oracle s) -> ~ faulty (oracle s').
Proof. intros Hx H Hf. apply H. eapply faulty_suffix; [apply (sx_oracle _ _ Hx)|done]. Qed.
Lemma fine_Eok (E : stop -> st -> Prop) s : ~ faulty (oracle s) -> sEok E s.
Proof. intros H e s' _ _ Hh. exfalso. apply H. by eapply failing_faulty, hit_failing. Qed.

Lemma run_catch_ok {A} (p : prog A) (Q : A -> st -> Prop) s : swp p Q (fun _ _ => False) s ->
  exists a s', run p s = (Datatypes.inl a, s') /\ run (catch p) s = (Datatypes.inl (Datatypes.inl a), s') /\ Q a s'.
Proof.
  intros H. apply rwp_run in H. destruct (run p s) as [[a|x] s'] eqn:E; [|done]. exists a, s'. split; [done|]. split; [|done].
  rewrite run_catch, E. done.
Qed.

Lemma scan_loop D conf u h n (rec : nid -> prog stream_result) G :
  shape h u -> ksorted D (flat u) ->
  (forall c cn s, c ∈ tkids u -> hwf s -> ready D s c -> heap s !! cn = Some (node_of c) -> ~ faulty (oracle s) ->
     (reads (rec cn) s <= 4 * length (expected D conf c) + G * cut D conf (flatn c))%nat /\
     swp (rec cn) (fun r s' => snd r = false /\ sext s s' /\ hwf s') (fun _ _ => False) s) ->
  forall idxs s,
  hwf s -> ready D s u -> heap s !! n = Some (node_of u) -> ~ faulty (oracle s) ->
  StronglySorted (idx_order conf) idxs -> Forall (idx_valid u) idxs -> adj idxs ->
  (forall j x, j ∈ idxs -> Nat.even j = false -> x ∈ segl u j -> near conf (nkey D x) = true) ->
  (reads (trav_loop rec conf n idxs) s <=
    weight D conf u idxs + G * cut D conf (segs u idxs) + heads idxs + b1 (late D conf (segs u idxs)))%nat.
Proof.
  intros Hs Hsort Hrec. induction idxs as [|i idxs IH]; intros s Hw Hr Hn Hfa Hso Hv Hadj Hnear; [cbn; lia|].
  pose proof Hso as Hso0. apply StronglySorted_cons in Hso as [Hso Hlt]. inversion Hv as [|?? Hvi Hv']; subst.
  assert (forall s', sext s s' -> hwf s' -> (reads (trav_loop rec conf n idxs) s' <=
    weight D conf u idxs + G * cut D conf (segs u idxs) + heads idxs + b1 (late D conf (segs u idxs)))%nat) as IH'.
  { intros s' Hx Hw'. apply IH; [done|by eapply sready_mono|by eapply sext_heap|by eapply fine_sext|done|done|by eapply adj_tail|].
    intros j x Hj. apply Hnear. by right. }
  assert (forall i' x y, i' ∈ idxs -> x ∈ segl u i -> y ∈ segl u i' -> further conf (nkey D x) (nkey D y)) as Hfur.
  { intros i' x y Hi' Hx Hy. specialize (Hlt i' Hi'). unfold further, idx_order in *. destruct (t_rev conf).
    - by apply (segl_order D u h i' i y x).
    - by apply (segl_order D u h i i' x y). }
  assert (segs u (i :: idxs) = segl u i ++ segs u idxs) as Esegs by done.
  unfold idx_valid in Hvi. cbn [trav_loop weight]. destruct (parity i) as [[j ->]|[j ->]].
  - rewrite even_2, div2_2 in *. cbn [heads]. rewrite even_2. cbn [b1]. destruct Hvi as [c Hc].
    assert (c ∈ tkids u) as Hcin by (by eapply elem_of_list_lookup_2).
    assert (Ec : segl u (2 * j) = flatn c) by (by rewrite segl_even, Hc).
    assert (Ee : expect_at D conf u (2 * j) = expected D conf c) by (unfold expect_at; by rewrite Ec).
    rewrite Ee, Esegs, Ec.
    destruct (run_catch_ok (get_child n j) (fun cn s' => sext s s' /\ hwf s' /\ heap s' !! cn = Some (node_of c)) s) as (cn & s1 & E0 & E1 & Hx1 & Hw1 & Hcn).
    { apply (swp_child D n u j c); [done|done|done|by eapply ready_kid|by eauto|by apply fine_Eok]. }
    rewrite reads_bind, reads_catch, E1. pose proof (cost_get_child n j s) as H1.
    destruct (Hrec c cn s1) as [H2 H3]; [done|done| |done|by eapply fine_sext|].
    { eapply sready_mono; [exact Hx1|done|]. by eapply ready_kid. }
    apply rwp_run in H3. rewrite reads_bind. destruct (run (rec cn) s1) as [[[its bb]|x] s2] eqn:E2; [|done].
    cbn [snd] in H3. destruct H3 as (-> & Hx2 & Hw2). assert (sext s s2) as Hx02 by (by eapply sext_trans).
    cbn iota. rewrite reads_bind.
    (* what follows is near *)
    assert (forall i' l', idxs = i' :: l' -> exists q k, i' = (2 * k + 1)%nat /\ tkeys u !! k = Some q /\ near conf (keyof D q) = true) as Hnext.
    { intros i' l' ->. pose proof (Hadj [] (2 * j)%nat i' l' eq_refl) as Ha. rewrite even_2 in Ha.
      destruct (parity i') as [[k ->]|[k ->]]; [by rewrite even_2 in Ha|].
      apply Forall_cons in Hv' as [Hvk _]. unfold idx_valid in Hvk. rewrite even_2_1, div2_2_1 in Hvk. destruct Hvk as [q Hq].
      exists q, k. split_and!; [done|done|]. apply (Hnear (2 * k + 1)%nat (q, u)); [right; left|apply even_2_1|rewrite segl_odd, Hq; left]. }
    assert (early D conf (segs u idxs) = false) as Hear.
    { apply early_false. intros x (i' & Hi' & Hx)%elem_of_segs. destruct idxs as [|i0 l0]; [by apply elem_of_nil in Hi'|].
      destruct (Hnext _ _ eq_refl) as (q & k & -> & Hq & Hnq). apply elem_of_cons in Hi' as [->|Hi'].
      - eapply Hnear; [right; left|apply even_2_1|done].
      - apply StronglySorted_cons in Hso as [_ Hlt0]. specialize (Hlt0 i' Hi').
        eapply near_mono; [exact Hnq|]. change (keyof D q) with (nkey D (q, u)).
        assert ((q, u) ∈ segl u (2 * k + 1)) as Hqin by (rewrite segl_odd, Hq; left).
        unfold further, idx_order in *. destruct (t_rev conf).
        + by apply (segl_order D u h i' (2 * k + 1) x (q, u)).
        + by apply (segl_order D u h (2 * k + 1) i' (q, u) x). }
    assert (heads idxs = 0) as Hh0.
    { destruct idxs as [|i0 l0]; [done|]. destruct (Hnext _ _ eq_refl) as (q & k & -> & _). cbn [heads]. by rewrite even_2_1. }
    assert (forall z : (stream_result + stop) * st, match z with (Datatypes.inl a, s') => reads (let '(its2, b2) := a in Ret (its ++ its2, b2)) s' | _ => 0 end = 0) as -> by (by intros [[[]|] ?]).
    unfold cut in *. rewrite early_app, late_app, Hear, orb_false_r in *.
    destruct (late D conf (flatn c)) eqn:El.
    + assert (reads (trav_loop rec conf n idxs) s2 <= 1)%nat as H4.
      { destruct idxs as [|i0 l0]; [cbn; lia|]. destruct (Hnext _ _ eq_refl) as (q & k & -> & Hq & Hnq).
        cbn [trav_loop]. rewrite even_2_1, div2_2_1.
        destruct (run_catch_ok (get_key_value n k) (fun kv s' => kv = D q) s2) as (kv & s3 & E3 & E4 & ->).
        { eapply (swp_get_key_value D); [done|eapply sext_heap; [exact Hx02|done]|exact Hq| |done|apply fine_Eok; by eapply fine_sext].
          assert (ready D s2 u) as Hr2 by (by eapply sready_mono). destruct (Hr2 u (subs_self u)) as [_ Hk]. rewrite Forall_forall in Hk. apply Hk. by eapply elem_of_list_lookup_2. }
        rewrite reads_bind, reads_catch, E4. pose proof (reads_get_key_value n k s2) as H4.
        assert (in_bounds conf (kv_key (D q)) = false) as ->; [|cbn [reads]; lia].
        change (kv_key (D q)) with (keyof D q). rewrite (near_in_bounds _ _ Hnq).
        destruct (late_true _ _ _ El) as (x & Hx & Hnx & Hix). eapply (rng_mono _ (nkey D x)); [done|done|].
        change (keyof D q) with (nkey D (q, u)). apply (Hfur (2 * k + 1)%nat); [left|by rewrite Ec|rewrite segl_odd, Hq; left]. }
      cbn [orb b1] in *. lia.
    + cbn [orb b1] in *. specialize (IH' s2 Hx02 Hw2). lia.
  - rewrite even_2_1, div2_2_1 in *. cbn [heads]. rewrite even_2_1. cbn [b1]. destruct Hvi as [q Hq].
    assert (Ec : segl u (2 * j + 1) = [(q, u)]) by (by rewrite segl_odd, Hq).
    assert (near conf (keyof D q) = true) as Hne.
    { eapply (Hnear (2 * j + 1)%nat (q, u)); [left|apply even_2_1|rewrite Ec; left]. }
    assert (kok D s q) as Hk.
    { destruct (Hr u (subs_self u)) as [_ Hk]. rewrite Forall_forall in Hk. apply Hk. by eapply elem_of_list_lookup_2. }
    destruct (run_catch_ok (get_key_value n j) (fun kv s' => kv = D q /\ sext s s' /\ hwf s') s) as (kv & s1 & E0 & E1 & -> & Hx1 & Hw1).
    { eapply (swp_get_key_value D); [done|exact Hn|exact Hq|done|done|by apply fine_Eok]. }
    rewrite reads_bind, reads_catch, E1. pose proof (reads_get_key_value n j s) as H1.
    change (kv_key (D q)) with (keyof D q). rewrite (near_in_bounds _ _ Hne).
    assert (length (expect_at D conf u (2 * j + 1)) = b1 (rng conf (keyof D q))) as ->.
    { unfold expect_at. rewrite Ec. unfold dl, inr. cbn [List.filter fst]. by destruct (rng conf (keyof D q)), (t_rev conf). }
    rewrite Esegs, Ec. unfold cut. rewrite early_app, late_app.
    assert (early D conf [(q, u)] = false) as ->.
    { apply early_false. intros x ->%elem_of_list_singleton. done. }
    assert (late D conf [(q, u)] = negb (rng conf (keyof D q))) as ->.
    { unfold late. cbn [existsb]. unfold nkey, inr. cbn [fst]. rewrite Hne. by rewrite orb_false_r. }
    destruct (rng conf (keyof D q)) eqn:Eq; cbn [negb orb b1].
    + rewrite reads_bind.
      assert (forall z : (stream_result + stop) * st, match z with (Datatypes.inl a, s') => reads (let '(its2, b2) := a in Ret ((IOk (D q), n) :: its2, b2)) s' | _ => 0 end = 0) as -> by (by intros [[[]|] ?]).
      specialize (IH' s1 Hx1 Hw1). unfold cut in IH'.
      assert (heads idxs <= 1)%nat by (destruct idxs as [|i0 ?]; cbn; [lia|destruct (Nat.even i0); cbn; lia]). lia.
    + cbn [reads]. lia.
Qed.

Lemma segl_flatn u h i x : shape h u -> x ∈ segl u i -> x ∈ flatn u.
Proof.
  intros Hs Hx. pose proof (segl_lt _ _ _ _ Hs Hx) as Hi. rewrite (flatn_segments u h Hs).
  apply (elem_of_segs u (seq 0 (2 * length (tkeys u) + 1))). exists i. split; [|done]. apply elem_of_seq. lia.
Qed.
Lemma segs_flatn u h idxs x : shape h u -> x ∈ segs u idxs -> x ∈ flatn u.
Proof. intros Hs (i & _ & Hx)%elem_of_segs. by eapply segl_flatn. Qed.

Fixpoint odds (D : nat -> kvdata) (conf : config) (u : tree) (idxs : list nat) : nat :=
  match idxs with
  | [] => 0
  | i :: idxs' => (if Nat.even i then 0 else length (expect_at D conf u i)) + odds D conf u idxs'
  end.
Lemma weight_odds D conf u idxs : (weight D conf u idxs + 2 * odds D conf u idxs = 4 * length (expect_idxs D conf u idxs))%nat.
Proof.
  unfold expect_idxs. induction idxs as [|i l IH]; [done|]. cbn [weight odds map concat]. rewrite app_length.
  destruct (Nat.even i); lia.
Qed.
Lemma odds_all D conf u h idxs : shape h u -> cut D conf (flatn u) = 0 -> 
  (odds D conf u idxs = length (List.filter Nat.odd (List.filter (fun i => Nat.even i || (Nat.div2 i <? length (tkeys u))) idxs)))%nat.
Proof.
  intros Hs Hc. pose proof (cut_zero _ _ _ Hc) as Hf.
  induction idxs as [|i l IH]; [done|]. cbn [odds List.filter].
  destruct (parity i) as [[j ->]|[j ->]].
  - rewrite even_2. cbn [orb List.filter]. rewrite <-Nat.negb_even, even_2. cbn [negb]. exact IH.
  - rewrite even_2_1, div2_2_1. cbn [orb]. unfold expect_at. rewrite segl_odd.
    destruct (Nat.ltb_spec j (length (tkeys u))) as [Hj|Hj].
    + destruct (lookup_lt_is_Some_2 _ _ Hj) as [q Hq]. rewrite Hq. cbn [List.filter]. rewrite <-(Nat.negb_even (2 * j + 1)), even_2_1. cbn [negb length].
      rewrite <-IH. assert (inr D conf (q, u) = true) as ->; [|unfold dl; destruct (t_rev conf); done].
      assert ((q, u) ∈ List.filter (inr D conf) (flatn u)) as Hin.
      { rewrite Hf. eapply (segl_flatn u h (2 * j + 1)); [done|]. rewrite segl_odd, Hq. left. }
      by apply elem_of_list_In, filter_In in Hin as [_ Hin].
    + rewrite lookup_ge_None_2 by done. cbn [List.filter]. unfold dl. destruct (t_rev conf); cbn [rev length]; exact IH.
Qed.
Lemma odds_keys D conf u h idxs : shape h u -> cut D conf (flatn u) = 0 ->
  (forall j x, ~ j ∈ idxs -> x ∈ segl u j -> near conf (nkey D x) = false) -> (length (tkeys u) <= odds D conf u idxs)%nat.
Proof.
  intros Hs Hc Hout. rewrite (odds_all D conf u h) by done.
  assert (length (map (fun j => 2 * j + 1)%nat (seq 0 (length (tkeys u)))) <= length (List.filter Nat.odd (List.filter (fun i => Nat.even i || (Nat.div2 i <? length (tkeys u))) idxs)))%nat as H;
    [|by rewrite map_length, seq_length in H].
  apply NoDup_incl_length.
  - apply FinFun.Injective_map_NoDup; [intros a b; lia|apply List.seq_NoDup].
  - intros i (j & <- & Hj)%in_map_iff. apply in_seq in Hj. apply filter_In. split; [apply filter_In; split|].
    + apply elem_of_list_In. destruct (decide ((2 * j + 1)%nat ∈ idxs)) as [|Hno]; [done|]. exfalso.
      destruct (lookup_lt_is_Some_2 (tkeys u) j ltac:(lia)) as [q Hq].
      assert ((q, u) ∈ segl u (2 * j + 1)) as Hin by (rewrite segl_odd, Hq; left).
      pose proof (Hout _ _ Hno Hin) as Hn. unfold cut, b1 in Hc. destruct (early D conf (flatn u)) eqn:E; [lia|].
      rewrite early_false in E. rewrite (E (q, u)) in Hn; [done|]. by eapply segl_flatn.
    + rewrite even_2_1, div2_2_1. apply Nat.ltb_lt. lia.
    + by rewrite <-Nat.negb_even, even_2_1.
Qed.

Lemma run_num_children n s : run (num_children n) s = match heap s !! n with Some nd => (Datatypes.inl (length (n_children nd)), s) | None => (Datatypes.inr SPanic, s) end.
Proof. unfold num_children. rewrite run_bind, run_node_get. by destruct (heap s !! n). Qed.

Lemma scan D conf fuel : forall u h n s,
  hwf s -> ready D s u -> shape h u -> ksorted D (flat u) -> (h < fuel)%nat -> heap s !! n = Some (node_of u) -> ~ faulty (oracle s) ->
  (reads (trav fuel conf n) s <= 4 * length (expected D conf u) + 6 * S h * cut D conf (flatn u) + (if (3 <=? length (tkeys u))%nat then 0 else 5))%nat.
Proof.
  induction fuel as [|fuel IH]; intros u h n s Hw Hr Hs Hsort Hf Hn Hfa; [lia|].
  cbn [trav]. rewrite reads_bind, run_num_keys, Hn. pose proof (cost_num_keys n s) as C1.
  rewrite reads_bind, run_num_children, Hn. pose proof (cost_num_children n s) as C2.
  unfold node_of at 1 2. cbn [n_keys n_children]. rewrite map_length.
  rewrite reads_bind, reads_catch.
  assert (forall z, reads (make_iter conf n (length (tkeys u)) z) s <= 4)%nat as C3.
  { intros z. unfold make_iter. rewrite reads_bind. pose proof (reads_index n (if t_rev conf then t_max conf else t_min conf) s _ Hn (shape_8 _ _ Hs)).
    destruct (run (get_index_of_key _ _) _) as [[[]|] ?]; cbn [reads]; lia. }
  specialize (C3 (length (tkids u))).
  destruct (run_catch_ok (make_iter conf n (length (tkeys u)) (length (tkids u)))
    (fun idxs s' => sext s s' /\ hwf s' /\ exists m i, idx_ok D (if t_rev conf then t_max conf else t_min conf) (tkeys u) m i /\
       idxs = iter_indices conf (length (tkeys u)) (length (tkids u)) (bool_decide (is_Some m)) i) s) as (idxs & s1 & _ & -> & Hx1 & Hw1 & m & i & Hidx & ->).
  { unfold make_iter. apply swp_bind. eapply (swp_index D n (node_of u)); [done|done|apply (Hr u (subs_self u))| | |by apply fine_Eok].
    - eapply ksorted_sublist; [by eapply tkeys_sublist|done].
    - intros m i s' Hx Hw' Hi. apply swp_ret. split_and!; [done|done|]. exists m, i. done. }
  destruct (iter_spec D conf u h m i Hs Hsort Hidx) as (I1 & I2 & I3 & I4).
  assert (adj (iter_indices conf (length (tkeys u)) (length (tkids u)) (bool_decide (is_Some m)) i)) as I5.
  { destruct h as [|h]; [|apply adj_iter; rewrite (shape_kids_length _ _ Hs); lia].
    intros l1 a b l2 E. rewrite E in I2. apply Forall_app in I2 as [_ I2]. apply Forall_cons in I2 as [Ha _].
    destruct (Nat.even a) eqn:Ea; [|done]. unfold idx_valid in Ha. rewrite Ea, (shape_leaf _ Hs), lookup_nil in Ha. by destruct Ha. }
  set (idxs := iter_indices conf (length (tkeys u)) (length (tkids u)) (bool_decide (is_Some m)) i) in *. clearbody idxs.
  assert (Hr1 : ready D s1 u) by (by eapply sready_mono).
  pose proof (scan_loop D conf u h n (trav fuel conf) (6 * h) Hs Hsort) as HL.
  assert (HI : (reads (trav_loop (trav fuel conf) conf n idxs) s1 <=
    weight D conf u idxs + 6 * h * cut D conf (segs u idxs) + heads idxs + b1 (late D conf (segs u idxs)))%nat).
  { apply HL; [|done|done|by eapply sext_heap|by eapply fine_sext|done|done|done|done].
    intros c cn s2 Hc Hw2 Hr2 Hn2 Hfa2. destruct h as [|h]; [rewrite (shape_leaf _ Hs) in Hc; by apply elem_of_nil in Hc|].
    destruct (shape_kids _ _ _ Hs Hc) as [H4 Hsc]. apply elem_of_list_lookup in Hc as [k Hk].
    assert (ksorted D (flat c)) as Hsc2 by (eapply ksorted_sublist; [by apply (kid_sublist u (S h) k)|done]). split.
    - pose proof (IH c h cn s2 Hw2 Hr2 Hsc Hsc2 ltac:(lia) Hn2 Hfa2) as H5.
      destruct (Nat.leb_spec 3 (length (tkeys c))); lia.
    - eapply (swp_trav D conf c h); [done|done|done|done|lia|done|]. intros its b s3 Hx3 Hw3 Ht. cbn [snd]. split_and!; [|done|done].
      destruct b; [|done]. exfalso. apply Hfa2. eapply tr_faulty; [exact Ht|by left]. }
  pose proof (cut_sub D conf _ _ (fun x => segs_flatn u h idxs x Hs)) as Hcut.
  pose proof (late_sub D conf _ _ (fun x => segs_flatn u h idxs x Hs)) as Hlate.
  pose proof (weight_odds D conf u idxs) as Hwo. rewrite <-(expect_all D conf u h idxs Hs I1 I2 I4) in Hwo.
  assert (heads idxs <= 1)%nat by (destruct idxs as [|i0 ?]; cbn; [lia|destruct (Nat.even i0); cbn; lia]).
  destruct (decide (cut D conf (flatn u) = 0)) as [Hz|Hnz].
  - pose proof (odds_keys D conf u h idxs Hs Hz I4) as Hok.
    assert (b1 (late D conf (flatn u)) = 0) as Hl0 by (unfold cut in Hz; lia). rewrite Hz in Hcut |- *.
    assert (cut D conf (segs u idxs) = 0) as Hc0 by lia. rewrite Hc0 in HI.
    destruct (Nat.leb_spec 3 (length (tkeys u))); lia.
  - assert (6 * h * cut D conf (segs u idxs) <= 6 * h * cut D conf (flatn u))%nat by (apply Nat.mul_le_mono_l; done).
    assert (b1 (late D conf (flatn u)) <= 1)%nat by (destruct (late D conf (flatn u)); cbn; lia).
    destruct (3 <=? length (tkeys u))%nat; lia.
Qed.

Lemma cut_two D conf l : (cut D conf l <= 2)%nat.
Proof. unfold cut, b1. destruct (early _ _ _), (late _ _ _); lia. Qed.

(** Without faults every reported item is an entry. *)
Lemma tr_length D K s o' o its l b : tr D K s o' o its l b -> ~ faulty o -> length its = length l.
Proof.
  intros Ht Hfa. pose proof (tr_faulty _ _ _ _ _ _ _ _ Ht) as He.
  assert (forall x, x ∈ its -> ~ is_err x) as Hne.
  { intros x Hx Hx'. apply Hfa, He. right. apply Exists_exists. by exists x. }
  clear He Hfa. induction Ht; cbn [length]; try done.
  - f_equal. apply IHHt. intros x Hx. apply Hne. by right.
  - exfalso. eapply Hne; [left|]. by eexists.
  - exfalso. eapply Hne; [left|]. by eexists.
  - exfalso. eapply Hne; [left|]. by eexists.
Qed.

(** *** C56 *)
Lemma scan_reads fuel l i conf its b : history fuel 1 l -> usable l i ->
  fst (do_call fuel i (CTraverse conf) [] (world_after fuel l)) = Datatypes.inl (RItems its b) ->
  exists rs b L, 
  play fuel l (new_world []) = (rs, world_after fuel l) /\ explains l empty_store rs b /\ level_bound L (length (s_entries b)) /\
  (call_reads fuel i (CTraverse conf) [] (world_after fuel l) <= 4 * length its + 12 * L + 6)%nat.
Proof.
  intros H Hi HC. reach H.
  assert (exists L, levels t L /\ level_bound L (length m)) as (L & HL & HLm).
  { destruct t as [T|]; [|exists 0; split; [done|by left; lia]]. destruct (wi_rep _ _ _ _ HI) as (_ & h & HW & Em).
    exists (S h). split; [exists h; split; [done|apply HW]|]. subst m. rewrite map_length.
    destruct (rshape_size h T (wf_shape _ _ _ _ HW)) as [->|?]; [left; lia|right; replace (S h - 1)%nat with h by lia; done]. }
  exists rs, (Store N m), L. split_and!; [done|done|done|].
  pose proof (wi_rep _ _ _ _ HI) as Hr. pose proof (wi_ok _ _ _ _ HI i Hi) as Ho. change (w_core (world_after fuel l)) with (core (view (world_after fuel l) i [])) in Hr.
  set (w := world_after fuel l) in *.
  assert (length (core (view w i [])) <= fuel)%nat as Hfu by (destruct Hfit as [Hfit _]; unfold with_header in Hfit; cbn [view core]; lia).
  unfold call_reads, api. rewrite reads_bind, reads_catch.
  assert (forall z : (reply + err + stop) * st, match z with (Datatypes.inl a, s') => reads match a with Datatypes.inl x => Ret x | Datatypes.inr e => Ret (RErr e) end s' | _ => 0 end = 0) as -> by (by intros [[[|]|] ?]).
  rewrite Nat.add_0_r. cbn [call_prog]. rewrite reads_bind.
  assert (forall z : (list item * bool + stop) * st, match z with (Datatypes.inl a, s') => reads (let '(its, b) := a in Ret (RItems its b)) s' | _ => 0 end = 0) as -> by (by intros [[[]|] ?]).
  rewrite Nat.add_0_r. unfold tree_traverse. rewrite reads_bind.
  destruct t as [T|].
  2:{ destruct Hr as [Hl ->]. destruct (reads_get_root false (view w i []) Hl) as [-> Hno].
      destruct (run (get_root false) (view w i [])) as [[[n|]|x] s1] eqn:E; [by destruct (Hno n s1)| |lia]. cbn [reads throw]. lia. }
  pose proof (cost_get_root false (view w i [])) as H1.
  destruct (run (get_root false) (view w i [])) as [[r|x] s1] eqn:E; [|lia].
  assert (exists n, r = Some n /\ sext (view w i []) s1 /\ heap s1 !! n = Some (node_of T) /\ loc s1 (tref T) n) as (n & -> & Hx1 & Hn & Hl).
  { apply (swp_run _ (fun r s1 => exists n, r = Some n /\ sext (view w i []) s1 /\ heap s1 !! n = Some (node_of T) /\ loc s1 (tref T) n) _ _ _) in E; [done|].
    eapply swp_root; [exact Hr|exact Ho|by intros T' n s' [= <-]; eauto|done]. }
  pose proof Hr as (Hl2 & h & HW & Hm).
  pose proof (okh_sext _ _ _ _ Hr Hx1 Ho) as Hok1. pose proof (rep_sext _ _ _ _ Hx1 Hr) as Hr1.
  pose proof (okh_ready _ _ _ Hr1 Hok1) as Hrd1. rewrite (sx_core _ _ Hx1) in Hrd1.
  destruct HL as (h' & -> & Hsh). pose proof (shape_ht _ _ Hsh) as Eh. destruct (wf_shape _ _ _ _ HW) as [Hsh' _].
  rewrite (shape_ht _ _ Hsh') in Eh. subst h'.
  assert (~ faulty (oracle s1)) as Hfa.
  { eapply fine_sext; [exact Hx1|]. cbn. intros Hx. inversion Hx. }
  pose proof (wft_height _ _ _ _ HW) as Hht.
  pose proof (scan (kd (core (view w i []))) conf fuel T h n s1 (proj1 Hok1) Hrd1 Hsh' (wf_sort _ _ _ _ HW) ltac:(lia) Hn Hfa) as HS.
  assert (swp (trav fuel conf n) (fun r _ => length (fst r) = length (expected (kd (core (view w i []))) conf T)) (fun _ _ => True) s1) as HP.
  { eapply (swp_trav (kd (core (view w i []))) conf T h); [apply Hok1|done|done|apply HW|lia|done|].
    intros its0 b0 s2 _ _ Ht. cbn [fst]. by eapply tr_length. }
  apply rwp_run in HP.
  unfold do_call, api in HC. rewrite run_bind, run_catch in HC. cbn [call_prog] in HC. rewrite run_bind in HC. unfold tree_traverse in HC.
  rewrite run_bind, E in HC. rewrite run_bind in HC. rewrite reads_bind.
  assert (forall z : (stream_result + stop) * st, match z with (Datatypes.inl a, s') => reads (let '(its, b) := a in Ret (map fst its, b)) s' | _ => 0 end = 0) as -> by (by intros [[[]|] ?]).
  pose proof (cut_two (kd (core (view w i []))) conf (flatn T)) as Hc2.
  assert (6 * S h * cut (kd (core (view w i []))) conf (flatn T) <= 6 * S h * 2)%nat by (apply Nat.mul_le_mono_l; done).
  destruct (run (trav fuel conf n) s1) as [[[its0 b0]|x] s2] eqn:E4; [|by destruct x].
  cbn in HC. injection HC as <- <-. cbn [fst] in HP. rewrite map_length, HP.
  destruct (3 <=? length (tkeys T))%nat; lia.
Qed.
