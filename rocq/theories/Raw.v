(** Reads of cores with arbitrary contents. *)
From Coq.Strings Require Import Byte.
From stdpp Require Import prelude gmap.
From Verif Require Import Bytes Codec Model Wp Spec Client.
From Verif Require Iter.

Section raw.
  Context (C : list bytes) (HC : sane C).

  Definition rinv (s : st) : Prop :=
    core s = C /\
    forall q e, cache s !! q = Some e ->
      exists b, block_at C q = Some b /\ Forall2 (fun n nd => heap s !! n = Some nd) (e_nodes e) (b_nodes b).
  Definition rext (s s' : st) : Prop :=
    rinv s' /\ forall n nd, heap s !! n = Some nd -> heap s' !! n = Some nd.
  Definition node_at (s : st) (n q i : nat) (nd : node) : Prop :=
    exists b, block_at C q = Some b /\ b_nodes b !! i = Some nd /\ heap s !! n = Some nd.

  Lemma rext_refl s : rinv s -> rext s s.
  Proof. by split. Qed.
  Lemma rext_trans s1 s2 s3 : rext s1 s2 -> rext s2 s3 -> rext s1 s3.
  Proof. intros [_ H1] [H2 H3]. split; [done|]. auto. Qed.
  Lemma node_at_ext s s' n q i nd : rext s s' -> node_at s n q i nd -> node_at s' n q i nd.
  Proof. intros [_ H] (b & ? & ? & ?). exists b. auto. Qed.

  Definition ok {A} (p : prog A) (s : st) (Q : A -> st -> Prop) : Prop :=
    rwp eq (fun _ _ => True) p (fun a s' => rext s s' /\ Q a s') (fun x s' => rext s s' /\ exists e, x = SErr e) s.

  Lemma ok_bind {A B} (p : prog A) (f : A -> prog B) s Q Q' :
    ok p s Q -> (forall a s', rext s s' -> Q a s' -> ok (f a) s' Q') -> ok (pbind p f) s Q'.
  Proof.
    intros Hp Hf. unfold ok. apply rwp_bind; [done|].
    eapply rwp_mono; [| |exact Hp].
    - intros a s' [Hx Ha]. eapply rwp_mono; [| |exact (Hf a s' Hx Ha)].
      + intros b s'' [Hy Hb]. split; [by eapply rext_trans|done].
      + intros x s'' [Hy Hb]. split; [by eapply rext_trans|done].
    - intros x s' H. exact H.
  Qed.
  Lemma ok_mono {A} (p : prog A) s (Q Q' : A -> st -> Prop) :
    ok p s Q -> (forall a s', rext s s' -> Q a s' -> Q' a s') -> ok p s Q'.
  Proof.
    intros Hp HQ. eapply rwp_mono; [| |exact Hp]; [|done].
    intros a s' [Hx Ha]. split; [done|]. by apply HQ.
  Qed.
  Lemma ok_catch {A} (p : prog A) s Q (Q' : A + err -> st -> Prop) :
    ok p s Q -> (forall a s', Q a s' -> Q' (inl a) s') -> (forall e s', Q' (inr e) s') -> ok (catch p) s Q'.
  Proof.
    intros Hp HQ HE. unfold ok. apply rwp_catch.
    eapply rwp_mono; [| |exact Hp].
    - intros a s' [Hx Ha]. split; [done|]. by apply HQ.
    - intros x s' [Hx [e ->]]. by split.
  Qed.
  Lemma ok_ret {A} (a : A) s (Q : A -> st -> Prop) : rinv s -> Q a s -> ok (Ret a) s Q.
  Proof. intros Hi Ha s1 <-. split; [by apply rext_refl|done]. Qed.
  Lemma ok_throw {A} e s (Q : A -> st -> Prop) : rinv s -> ok (throw e) s Q.
  Proof. intros Hi s1 <-. split; [by apply rext_refl|by exists e]. Qed.
  Lemma ok_unwrap {A} (o : option A) a s (Q : A -> st -> Prop) : rinv s -> o = Some a -> Q a s -> ok (unwrap o) s Q.
  Proof. intros Hi -> Ha. by apply ok_ret. Qed.

  Lemma ok_node_get s n q i nd : rinv s -> node_at s n q i nd -> ok (node_get n) s (fun r _ => r = nd).
  Proof. intros Hi (b & _ & _ & H) s1 <-. simpl. rewrite H. intros s1 <-. split; [by apply rext_refl|done]. Qed.

  Lemma rinv_oracle s o : rinv s -> rinv (set_oracle s o).
  Proof. done. Qed.

  Lemma ok_core_get q s : rinv s ->
    ok (CoreGet q Ret) s (fun r _ => r = GErr \/ r = GOk None \/ r = GOk (C !! q)).
  Proof.
    intros Hi s1 <-. split; [done|]. intros s1 <-.
    pose proof Hi as [Hc _]. unfold exec_get. rewrite Hc.
    destruct (oracle s) as [|[] o]; simpl; (split; [split; [done|by auto]|auto]).
  Qed.

  Lemma ok_alloc_all nds : forall s, rinv s ->
    ok (alloc_all nds) s (fun ns s' => Forall2 (fun n nd => heap s' !! n = Some nd) ns nds).
  Proof.
    induction nds as [|nd nds IH]; intros s Hi; simpl.
    - by apply ok_ret.
    - apply (ok_bind (node_new nd) _ s (fun n s' => heap s' !! n = Some nd)).
      { intros s1 <- js. split; [done|]. intros s1 <-. split.
        - split.
          + destruct Hi as [Hc Hi]. split; [done|]. simpl. intros q e He.
            destruct (Hi q e He) as (b & Hb & Hf). exists b. split; [done|].
            eapply Forall2_impl; [exact Hf|]. simpl. intros n' nd' H'. by do 2 apply lookup_app_l_Some.
          + simpl. intros n' nd' H'. by do 2 apply lookup_app_l_Some.
        - simpl. by apply list_lookup_middle. }
      intros n s1 Hx Hn. eapply ok_bind; [apply IH, Hx|]. intros ns s2 Hy Hns.
      apply ok_ret; [apply Hy|]. constructor; [by apply Hy|done].
  Qed.

  Lemma block_at_raw q raw b : C !! q = Some raw -> decode_block raw = DOk b -> block_at C q = Some b.
  Proof. intros H1 H2. unfold block_at. rewrite H1. simpl. by rewrite H2. Qed.

  Lemma ok_blocks_get q s : rinv s ->
    ok (blocks_get q) s (fun e s' => exists b, block_at C q = Some b /\
      Forall2 (fun n nd => heap s' !! n = Some nd) (e_nodes e) (b_nodes b)).
  Proof.
    intros Hi. unfold blocks_get.
    apply (ok_bind _ _ s (fun c s' => s' = s /\ c = cache s !! q)).
    { intros s1 <- s2 <-. split; [by apply rext_refl|done]. }
    intros c s1 _ [-> ->]. destruct (cache s !! q) as [e|] eqn:Hc.
    - apply ok_ret; [done|]. by apply Hi.
    - eapply ok_bind; [by apply ok_core_get|]. intros r s1 Hx [-> | [-> | ->]].
      + apply ok_throw, Hx.
      + apply ok_throw, Hx.
      + destruct (C !! q) as [raw|] eqn:Hraw; [|apply ok_throw, Hx].
        destruct (decode_block raw) as [| |b] eqn:Hd; [apply ok_throw, Hx| |].
        { destruct HC as (H1 & _). by destruct (H1 q raw Hraw). }
        eapply ok_bind; [apply ok_alloc_all, Hx|]. intros ns s2 Hy Hns.
        pose proof (block_at_raw q raw b Hraw Hd) as Hb.
        intros s3 <-. split; [done|]. intros s3 <-. split.
        * destruct Hy as [[Hco Hi2] Hh]. split; [|done]. split; [done|]. simpl.
          intros q' e'. destruct (decide (q = q')) as [<-|Hne].
          -- rewrite lookup_insert. intros [= <-]. by exists b.
          -- rewrite lookup_insert_ne by done. apply Hi2.
        * exists b. by split.
  Qed.

  Lemma ok_get_key_value s n q i nd j : rinv s -> node_at s n q i nd -> (j < length (n_keys nd))%nat ->
    ok (get_key_value n j) s (fun _ _ => True).
  Proof.
    intros Hi Hn Hj. unfold get_key_value.
    eapply ok_bind; [by eapply ok_node_get|]. intros nd' s1 Hx1 ->.
    destruct (lookup_lt_is_Some_2 (n_keys nd) j Hj) as [k Hk].
    eapply ok_bind; [eapply (ok_unwrap _ k _ (fun _ _ => True)); [apply Hx1|done|done]|]. intros k' s2 Hx2 _.
    eapply ok_bind; [apply ok_blocks_get, Hx2|]. intros e1 s3 Hx3 _.
    eapply ok_bind; [apply ok_blocks_get, Hx3|]. intros e2 s4 Hx4 _.
    apply ok_ret; [apply Hx4|done].
  Qed.

  Definition below (q i q' i' : nat) : Prop := (q' < q)%nat \/ (q' = q /\ (i < i')%nat).

  Lemma ok_get_child s n q i nd j : rinv s -> node_at s n q i nd -> (j < length (n_children nd))%nat ->
    ok (get_child n j) s (fun c s' => exists q' i' nd', below q i q' i' /\ node_at s' c q' i' nd').
  Proof.
    intros Hi Hn Hj. unfold get_child.
    pose proof Hn as (b0 & Hb0 & Hnd & _).
    destruct HC as (_ & HC2 & _). destruct (HC2 q b0 i nd Hb0 Hnd) as [_ Hr].
    eapply ok_bind; [by eapply ok_node_get|]. intros nd' s1 Hx1 ->.
    destruct (lookup_lt_is_Some_2 (n_children nd) j Hj) as [r Hk].
    eapply ok_bind; [eapply (ok_unwrap _ r _ (fun r' _ => r' = r)); [apply Hx1|done|done]|]. intros r' s2 Hx2 ->.
    eapply ok_bind; [apply ok_blocks_get, Hx2|]. intros e s3 Hx3 (b & Hb & Hf).
    destruct (Forall_lookup_1 _ _ _ _ Hr Hk) as [Hbelow Hoff].
    specialize (Hoff b Hb).
    destruct (lookup_lt_is_Some_2 (b_nodes b) (snd r) Hoff) as [nd' Hnd'].
    destruct (Forall2_lookup_r _ _ _ _ _ Hf Hnd') as (c & Hc & Hh).
    unfold get_tree_node. eapply ok_unwrap; [apply Hx3|exact Hc|].
    exists (fst r), (snd r), nd'. split; [exact Hbelow|]. exists b. auto.
  Qed.

  Lemma ok_num_keys s n q i nd : rinv s -> node_at s n q i nd -> ok (num_keys n) s (fun r _ => r = length (n_keys nd)).
  Proof.
    intros Hi Hn. unfold num_keys. eapply ok_bind; [by eapply ok_node_get|]. intros nd' s1 Hx ->.
    apply ok_ret; [apply Hx|done].
  Qed.
  Lemma ok_num_children s n q i nd : rinv s -> node_at s n q i nd -> ok (num_children n) s (fun r _ => r = length (n_children nd)).
  Proof.
    intros Hi Hn. unfold num_children. eapply ok_bind; [by eapply ok_node_get|]. intros nd' s1 Hx ->.
    apply ok_ret; [apply Hx|done].
  Qed.
  Lemma ok_is_leaf s n q i nd : rinv s -> node_at s n q i nd -> ok (is_leaf n) s (fun r _ => r = (length (n_children nd) =? 0)%nat).
  Proof.
    intros Hi Hn. unfold is_leaf. eapply ok_bind; [by eapply ok_num_children|]. intros c s1 Hx ->.
    apply ok_ret; [apply Hx|done].
  Qed.

  (** The index is that of a key, or of a gap between keys. *)
  Definition index_ok (nd : node) (r : option nat * nat) : Prop :=
    match fst r with
    | Some _ => (snd r < length (n_keys nd))%nat
    | None => (snd r <= length (n_keys nd))%nat
    end.

  Lemma ok_search f : forall s n q i nd key low high, rinv s -> node_at s n q i nd ->
    (high < length (n_keys nd))%nat -> (low <= S high)%nat -> (S high - low < f)%nat ->
    ok (search_loop f n key low high) s (fun r _ => index_ok nd r).
  Proof.
    induction f as [|f IH]; intros s n q i nd key low high Hi Hn Hh Hl Hf; [lia|]. cbn [search_loop].
    destruct (Nat.leb_spec low high) as [Hle|Hgt].
    - cbv zeta. set (mid := (low + Nat.div2 (high - low))%nat).
      assert (Hm : (low <= mid <= high)%nat).
      { unfold mid. pose proof (Nat.div2_decr (high - low) (high - low)). lia. }
      eapply ok_bind; [eapply ok_get_key_value; [done|done|]; lia|]. intros kv s1 Hx _.
      destruct (limit_eq key (kv_key kv)).
      { apply ok_ret; [apply Hx|]. unfold index_ok. simpl. lia. }
      destruct (limit_lt key (kv_key kv)).
      + destruct (Nat.eqb_spec mid 0) as [Hz|Hnz].
        * apply ok_ret; [apply Hx|]. unfold index_ok. simpl. lia.
        * eapply IH; [apply Hx|by eapply node_at_ext|lia..].
      + eapply IH; [apply Hx|by eapply node_at_ext|lia..].
    - apply ok_ret; [done|]. unfold index_ok. simpl. lia.
  Qed.

  Lemma ok_get_index s n q i nd key : rinv s -> node_at s n q i nd ->
    ok (get_index_of_key n key) s (fun r _ => index_ok nd r).
  Proof.
    intros Hi Hn. unfold get_index_of_key.
    eapply ok_bind; [by eapply ok_num_keys|]. intros nk s1 Hx ->.
    destruct (Nat.eqb_spec (length (n_keys nd)) 0) as [Hz|Hnz].
    - apply ok_ret; [apply Hx|]. unfold index_ok. simpl. lia.
    - eapply ok_search; [apply Hx|by eapply node_at_ext|lia..].
  Qed.

  (** Every step down the tree uses up a node. *)
  Definition nodes_in (raw : bytes) : nat := match decode_block raw with DOk b => length (b_nodes b) | _ => 0 end.
  Definition rank (q i : nat) : nat := (sum_list (map nodes_in (take (S q) C)) - i)%nat.

  Lemma sum_take_le l a b : (a <= b)%nat -> (sum_list (map nodes_in (take a l)) <= sum_list (map nodes_in (take b l)))%nat.
  Proof.
    revert a b. induction l as [|x l IH]; intros a b H; [by rewrite !take_nil|].
    destruct a as [|a]; [simpl; lia|]. destruct b as [|b]; [lia|]. cbn [take map sum_list sum_list_with]. specialize (IH a b ltac:(lia)). simpl. lia.
  Qed.
  Lemma sum_take_S l q raw : l !! q = Some raw ->
    sum_list (map nodes_in (take (S q) l)) = (sum_list (map nodes_in (take q l)) + nodes_in raw)%nat.
  Proof.
    intros H. rewrite (take_S_r _ _ _ H), map_app. induction (map nodes_in (take q l)) as [|x m IH]; simpl in *; unfold id in *; lia.
  Qed.

  Lemma rank_node q i b nd : block_at C q = Some b -> b_nodes b !! i = Some nd ->
    (0 < rank q i)%nat /\ (rank q i <= node_count C)%nat /\ (sum_list (map nodes_in (take q C)) + (length (b_nodes b) - i) = rank q i)%nat.
  Proof.
    intros Hb Hnd. unfold block_at in Hb. destruct (C !! q) as [raw|] eqn:Hr; simpl in Hb; [|done].
    destruct (decode_block raw) as [| |b'] eqn:Hd; [done|done|]. injection Hb as ->.
    apply lookup_lt_Some in Hnd. unfold rank. rewrite (sum_take_S C q raw Hr).
    assert (Hn : nodes_in raw = length (b_nodes b)) by (unfold nodes_in; by rewrite Hd).
    rewrite Hn.
    assert (Hle : (sum_list (map nodes_in (take (S q) C)) <= node_count C)%nat).
    { unfold node_count. fold nodes_in. rewrite <- (firstn_all C) at 2. apply sum_take_le. apply lookup_lt_Some in Hr. lia. }
    rewrite (sum_take_S C q raw Hr) in Hle. lia.
  Qed.

  Lemma rank_below s n q i nd s' n' q' i' nd' : node_at s n q i nd -> node_at s' n' q' i' nd' ->
    below q i q' i' -> (rank q' i' < rank q i)%nat.
  Proof.
    intros (b & Hb & Hnd & _) (b' & Hb' & Hnd' & _) Hlt.
    destruct (rank_node q i b nd Hb Hnd) as (H0 & _ & H1).
    destruct (rank_node q' i' b' nd' Hb' Hnd') as (H0' & _ & H1').
    apply lookup_lt_Some in Hnd, Hnd'.
    destruct Hlt as [Hlt|[-> Hlt]].
    - unfold rank. pose proof (sum_take_le C (S q') q). unfold rank in *. lia.
    - unfold rank in *. lia.
  Qed.

  Lemma sane_at s n q i nd : node_at s n q i nd -> n_children nd = [] \/ (length (n_keys nd) < length (n_children nd))%nat.
  Proof. intros (b & Hb & Hnd & _). destruct HC as (_ & H & _). by destruct (H q b i nd Hb Hnd). Qed.

  Lemma ok_nearest f : forall s n q i nd key acc, rinv s -> node_at s n q i nd -> (rank q i < f)%nat ->
    ok (nearest_loop f n key acc) s (fun r s' => fst r <> None ->
      exists n' j p q' i' nd', snd r = (n', j) :: p /\ node_at s' n' q' i' nd' /\ (j < length (n_keys nd'))%nat).
  Proof.
    induction f as [|f IH]; intros s n q i nd key acc Hi Hn Hf; [lia|]. cbn [nearest_loop].
    eapply ok_bind; [by eapply ok_get_index|]. intros [m j] s1 Hx1 Hj. unfold index_ok in Hj. simpl in Hj.
    assert (Hn1 : node_at s1 n q i nd) by (by eapply node_at_ext).
    destruct m as [m|].
    - apply ok_ret; [apply Hx1|]. intros _. exists n, j, acc, q, i, nd. by split_and!.
    - eapply ok_bind; [eapply ok_is_leaf; [apply Hx1|done]|]. intros leaf s2 Hx2 ->.
      destruct (Nat.eqb_spec (length (n_children nd)) 0) as [Hz|Hnz]; [apply ok_ret; [apply Hx2|done]|].
      destruct (sane_at s1 n q i nd Hn1) as [Hnil|Hlen]; [by rewrite Hnil in Hnz|].
      eapply ok_bind; [eapply ok_get_child; [apply Hx2|by eapply node_at_ext|lia]|].
      intros c s3 Hx3 (q' & i' & nd' & Hlt & Hc).
      eapply ok_mono; [eapply IH; [apply Hx3|exact Hc|]|by auto].
      pose proof (rank_below s1 n q i nd s3 c q' i' nd' Hn1 Hc Hlt). lia.
  Qed.

  Lemma ok_get_root s : rinv s -> ok (get_root false) s (fun r s' => forall n, r = Some n -> exists q nd, node_at s' n q 0 nd).
  Proof.
    intros Hi. unfold get_root, version, core_len.
    apply (ok_bind _ _ s (fun v s' => s' = s /\ v = length C)).
    { intros s1 <- s2 <-. split; [by apply rext_refl|]. destruct Hi as [-> _]. done. }
    intros v s1 _ [-> ->]. destruct (Nat.leb_spec (length C) 1) as [Hle|Hgt].
    - rewrite andb_false_r. by apply ok_ret.
    - eapply ok_bind; [by apply ok_blocks_get|]. intros e s1 Hx (b & Hb & Hf).
      destruct HC as (_ & _ & Hroot). specialize (Hroot b Hb).
      destruct (b_nodes b) as [|nd nds] eqn:Hbn; [done|].
      assert (Hnd : b_nodes b !! 0 = Some nd) by (by rewrite Hbn). rewrite <- Hbn in Hf.
      destruct (Forall2_lookup_r _ _ _ _ _ Hf Hnd) as (c & Hc & Hh).
      eapply ok_bind; [eapply (ok_unwrap _ c _ (fun r _ => r = c)); [apply Hx|exact Hc|done]|]. intros c' s2 Hy ->.
      apply ok_ret; [apply Hy|]. intros n [= <-]. exists (length C - 1)%nat, nd, b. split_and!; [done..|]. by apply Hy.
  Qed.

  Lemma ok_get fuel k s : rinv s -> (node_count C < fuel)%nat -> ok (tree_get fuel k) s (fun _ _ => True).
  Proof.
    intros Hi Hf. unfold tree_get. eapply ok_bind; [by apply ok_get_root|].
    intros [root|] s1 Hx1 Hroot; [|apply ok_ret; [apply Hx1|done]].
    destruct (Hroot root eq_refl) as (q & nd & Hn). pose proof Hn as (b & Hb & Hnd & _).
    destruct (rank_node q 0 b nd Hb Hnd) as (_ & Hr & _).
    unfold nearest_node. eapply ok_bind; [eapply ok_nearest; [apply Hx1|exact Hn|lia]|].
    intros [m p] s2 Hx2 Hm. destruct m as [m|]; [|apply ok_ret; [apply Hx2|done]].
    destruct (Hm ltac:(done)) as (n' & j & p' & q' & i' & nd' & Hp & Hn' & Hj). simpl in Hp. subst p.
    eapply ok_bind; [eapply (ok_unwrap _ (n', j) _ (fun r _ => r = (n', j))); [apply Hx2|done|done]|].
    intros r s3 Hx3 ->. eapply ok_bind; [eapply ok_get_key_value; [apply Hx3|by eapply node_at_ext|done]|].
    intros kv s4 Hx4 _. apply ok_ret; [apply Hx4|done].
  Qed.

  (** The indices a traversal visits. *)
  Lemma iter_indices_ok conf nd m j x : index_ok nd (m, j) ->
    (n_children nd = [] \/ (length (n_keys nd) < length (n_children nd))%nat) ->
    x ∈ iter_indices conf (length (n_keys nd)) (length (n_children nd)) (bool_decide (is_Some m)) j ->
    if Nat.even x then (Nat.div2 x < length (n_children nd))%nat else (Nat.div2 x < length (n_keys nd))%nat.
  Proof.
    intros Hj Hc Hx.
    set (nk := length (n_keys nd)) in *. set (nc := length (n_children nd)) in *.
    assert (Hc' : nc = 0 \/ nk < nc) by (destruct Hc as [H|H]; [left; unfold nc; by rewrite H|by right]). clear Hc.
    assert (Hgoal : (nc = 0 -> Nat.odd x = true) /\ (x < nk * 2 + 1)%nat).
    { unfold index_ok in Hj. simpl in Hj. fold nk in Hj.
      unfold iter_indices in Hx. cbv zeta in Hx.
      assert (Hb : bool_decide (is_Some m) = match m with Some _ => true | None => false end)
        by (destruct m; [by apply bool_decide_eq_true_2|by apply bool_decide_eq_false_2; intros [? ?]]).
      rewrite Hb in Hx.
      assert (elem_of_rev : forall l : list nat, x ∈ rev l <-> x ∈ l)
        by (intros l; rewrite !elem_of_list_In; symmetry; apply in_rev).
      assert (Hrange : forall a b st, (0 < st)%nat -> x ∈ range_by a b st -> exists k, x = (a + k * st)%nat /\ (x < b)%nat)
        by (intros a b st Hst; unfold range_by; intros H; by apply Iter.elem_of_range_step in H).
      destruct (Nat.eqb_spec nc 0) as [Hz|Hnz]; simpl in Hx.
      - assert (Hodd : forall a k, Nat.odd a = true -> Nat.odd (a + k * 2) = true).
        { intros a k Ha. rewrite Nat.odd_add, Ha, Nat.odd_mul. simpl. by rewrite andb_false_r. }
        assert (Hod1 : forall a, Nat.odd (a * 2 + 1) = true).
        { intros a. rewrite Nat.odd_add, Nat.odd_mul. simpl. by rewrite andb_false_r. }
        destruct m as [m|]; [destruct (if t_rev conf then t_max_incl conf else t_min_incl conf)|];
          destruct (t_rev conf); simpl in Hx.
        + rewrite elem_of_rev in Hx. apply Hrange in Hx as (k & -> & Hk); [|lia]. split; [intros _; by apply Hodd|lia].
        + apply Hrange in Hx as (k & -> & Hk); [|lia]. split; [intros _; by apply Hodd, Hod1|lia].
        + destruct ((j * 2 + 1 =? 1)%nat && true); [by apply elem_of_nil in Hx|].
          rewrite elem_of_rev in Hx. apply Hrange in Hx as (k & -> & Hk); [|lia]. split; [intros _; by apply Hodd|lia].
        + apply Hrange in Hx as (k & -> & Hk); [|lia]. split; [intros _|lia].
          replace (j * 2 + 1 + 2)%nat with (S j * 2 + 1)%nat by lia. by apply Hodd, Hod1.
        + destruct (j * 2 =? 0)%nat.
          * rewrite elem_of_rev in Hx. apply Hrange in Hx as (k & -> & Hk); [|lia]. split; [intros _; by apply Hodd|lia].
          * rewrite elem_of_rev in Hx. apply Hrange in Hx as (k & -> & Hk); [|lia]. split; [intros _; by apply Hodd|lia].
        + apply Hrange in Hx as (k & -> & Hk); [|lia]. split; [intros _; by apply Hodd, Hod1|lia].
      - split; [lia|].
        destruct m as [m|]; [destruct (if t_rev conf then t_max_incl conf else t_min_incl conf)|];
          destruct (t_rev conf); simpl in Hx; rewrite ?andb_false_r in Hx; rewrite ?elem_of_rev in Hx;
          apply Hrange in Hx as (k & Hxk & Hk); lia. }
    destruct Hgoal as [Ho Hlt].
    destruct (Nat.even x) eqn:He.
    - apply Nat.even_spec in He as [y ->]. rewrite Nat.div2_double.
      destruct Hc' as [Hz|Hlt']; [|lia]. specialize (Ho Hz). rewrite Nat.odd_mul in Ho. done.
    - assert (Ho' : Nat.odd x = true) by (unfold Nat.odd; by rewrite He).
      apply Nat.odd_spec in Ho' as [y ->]. replace (2 * y + 1)%nat with (S (2 * y)) by lia.
      rewrite Nat.div2_succ_double. lia.
  Qed.

  Definition items_ok (r : stream_result) : Prop :=
    snd r = true -> exists its' e n, fst r = its' ++ [(IErr (EBuildIterator e), n)].

  Lemma ok_trav_loop rec conf n q i nd :
    (forall s c q' i' nd', rinv s -> node_at s c q' i' nd' -> below q i q' i' -> ok (rec c) s (fun r _ => items_ok r)) ->
    forall idxs s, rinv s -> node_at s n q i nd ->
    (forall x, x ∈ idxs -> if Nat.even x then (Nat.div2 x < length (n_children nd))%nat else (Nat.div2 x < length (n_keys nd))%nat) ->
    ok (trav_loop rec conf n idxs) s (fun r _ => items_ok r).
  Proof.
    intros Hrec. induction idxs as [|x idxs IH]; intros s Hi Hn Hidx; cbn [trav_loop]; [by apply ok_ret|].
    assert (Hidx' : forall y, y ∈ idxs -> if Nat.even y then (Nat.div2 y < length (n_children nd))%nat else (Nat.div2 y < length (n_keys nd))%nat)
      by (intros y Hy; apply Hidx; by right).
    specialize (Hidx x ltac:(by left)).
    assert (Hcons : forall it (its : list (item * nid)) b, items_ok (its, b) -> items_ok (it :: its, b)).
    { intros it its b H Hb. destruct (H Hb) as (its' & e & n' & Heq). simpl in *. exists (it :: its'), e, n'. by rewrite Heq. }
    assert (Hgo : forall s' it, rext s s' -> ok ('(its, b) <- trav_loop rec conf n idxs ;; Ret (it :: its, b)) s' (fun r _ => items_ok r)).
    { intros s' it Hx. eapply ok_bind; [apply IH; [apply Hx|by eapply node_at_ext|done]|].
      intros [its b] s2 Hx2 H. apply ok_ret; [apply Hx2|by apply Hcons]. }
    destruct (Nat.even x).
    - eapply ok_bind.
      { eapply (ok_catch _ s (fun c s' => exists q' i' nd', below q i q' i' /\ node_at s' c q' i' nd') (fun r s' => match r with inl c => exists q' i' nd', below q i q' i' /\ node_at s' c q' i' nd' | inr _ => True end));
          [by eapply ok_get_child|done|done]. }
      intros [c|e] s1 Hx1 Hc; [|by apply Hgo].
      destruct Hc as (q' & i' & nd' & Hlt & Hc).
      eapply ok_bind; [eapply Hrec; [apply Hx1|exact Hc|done]|]. intros [its1 b1] s2 Hx2 H1.
      destruct b1.
      + apply ok_ret; [apply Hx2|done].
      + eapply ok_bind; [apply IH; [apply Hx2|by eapply node_at_ext; [exact Hx2|]; eapply node_at_ext|done]|].
        intros [its2 b2] s3 Hx3 H2. apply ok_ret; [apply Hx3|]. intros Hb. destruct (H2 Hb) as (its' & e & n' & Heq).
        simpl in *. exists (its1 ++ its'), e, n'. by rewrite Heq, app_assoc.
    - eapply ok_bind.
      { apply (ok_catch _ s (fun _ _ => True) (fun r s' => True)); [by eapply ok_get_key_value|done|done]. }
      intros [kv|e] s1 Hx1 _; [|by apply Hgo].
      destruct (in_bounds conf (kv_key kv)); [by apply Hgo|]. apply ok_ret; [apply Hx1|done].
  Qed.

  Lemma ok_trav conf f : forall s n q i nd, rinv s -> node_at s n q i nd -> (rank q i < f)%nat ->
    ok (trav f conf n) s (fun r _ => items_ok r).
  Proof.
    induction f as [|f IH]; intros s n q i nd Hi Hn Hf; [lia|]. cbn [trav].
    eapply ok_bind; [by eapply ok_num_keys|]. intros nk s1 Hx1 ->.
    assert (Hn1 : node_at s1 n q i nd) by (by eapply node_at_ext).
    eapply ok_bind; [eapply ok_num_children; [apply Hx1|done]|]. intros nc s2 Hx2 ->.
    assert (Hn2 : node_at s2 n q i nd) by (by eapply node_at_ext).
    eapply ok_bind.
    { apply (ok_catch _ s2 (fun l _ => forall x, x ∈ l -> if Nat.even x then (Nat.div2 x < length (n_children nd))%nat else (Nat.div2 x < length (n_keys nd))%nat)
         (fun r _ => match r with inl l => forall x, x ∈ l -> if Nat.even x then (Nat.div2 x < length (n_children nd))%nat else (Nat.div2 x < length (n_keys nd))%nat | inr _ => True end)); [|done|done].
      unfold make_iter. eapply ok_bind; [eapply ok_get_index; [apply Hx2|done]|]. intros [m j] s3 Hx3 Hj.
      apply ok_ret; [apply Hx3|]. intros x. apply iter_indices_ok; [done|by eapply sane_at]. }
    intros [l|e] s3 Hx3 Hl.
    - eapply ok_trav_loop; [|apply Hx3|by eapply node_at_ext|exact Hl].
      intros s' c q' i' nd' Hi' Hc Hlt. eapply IH; [done|exact Hc|].
      pose proof (rank_below s n q i nd s' c q' i' nd' Hn Hc Hlt). lia.
    - apply ok_ret; [apply Hx3|]. intros _. by exists [], e, n.
  Qed.

  Lemma ok_traverse fuel conf s : rinv s -> (node_count C < fuel)%nat ->
    ok (tree_traverse fuel conf) s (fun r _ => snd r = true -> exists its' e, fst r = its' ++ [IErr (EBuildIterator e)]).
  Proof.
    intros Hi Hf. unfold tree_traverse. eapply ok_bind; [by apply ok_get_root|].
    intros [root|] s1 Hx1 Hroot; [|apply ok_throw, Hx1].
    destruct (Hroot root eq_refl) as (q & nd & Hn). pose proof Hn as (b & Hb & Hnd & _).
    destruct (rank_node q 0 b nd Hb Hnd) as (_ & Hr & _).
    eapply ok_bind; [eapply ok_trav; [apply Hx1|exact Hn|lia]|].
    intros [its bb] s2 Hx2 H. apply ok_ret; [apply Hx2|]. simpl. intros Hbb. destruct (H Hbb) as (its' & e & n & Heq).
    simpl in Heq. rewrite Heq, map_app. by exists (map fst its'), e.
  Qed.

  Lemma ok_version s : rinv s -> ok version s (fun _ _ => True).
  Proof. intros Hi s1 <- s2 <-. split; [by apply rext_refl|done]. Qed.

  Lemma ok_call fuel c s : rinv s -> reads_only c -> (node_count C < fuel)%nat ->
    ok (call_prog fuel c) s (fun r _ => answered (inl r)).
  Proof.
    intros Hi Hc Hf. destruct c; try done; cbn [call_prog].
    - eapply ok_bind; [by apply ok_get|]. intros r s1 Hx _. apply ok_ret; [apply Hx|done].
    - eapply ok_bind; [by apply ok_version|]. intros r s1 Hx _. apply ok_ret; [apply Hx|done].
    - eapply ok_bind; [by apply ok_traverse|]. intros [its b] s1 Hx H. apply ok_ret; [apply Hx|].
      simpl. destruct b; [|done]. by apply H.
  Qed.

  Definition winv (w : world) : Prop := forall i o, rinv (view w i o).

  Lemma call_answered fuel i c o w : winv w -> reads_only c -> (node_count C < fuel)%nat ->
    answered (fst (do_call fuel i c o w)) /\ winv (snd (do_call fuel i c o w)).
  Proof.
    intros Hw Hc Hf.
    assert (H : rwp eq (fun _ _ => True) (api fuel c) (fun r s' => rinv s' /\ answered (inl r)) (fun _ _ => False) (view w i o)).
    { unfold api. apply rwp_bind; [done|]. apply rwp_catch.
      eapply rwp_mono; [| |exact (ok_call fuel c (view w i o) (Hw i o) Hc Hf)].
      - intros r s' [[Hi _] Hr] s1 <-. done.
      - intros x s' [[Hi _] [e ->]] s1 <-. done. }
    apply rwp_run in H. unfold do_call. destruct (run (api fuel c) (view w i o)) as [r s'].
    destruct r as [r|x]; [|done]. destruct H as [Hi Hr]. simpl. split; [exact Hr|].
    intros j o'. unfold view, commit_view, set_handle. simpl.
    destruct (Nat.eqb_spec j i) as [->|Hne]; [exact Hi|].
    destruct (Hw j o') as [Hco Hca]. destruct Hi as [Hco' _]. split; [done|]. exact Hca.
  Qed.

  Lemma play_answered fuel l : forall w, winv w -> Forall only_reads l -> (node_count C < fuel)%nat ->
    Forall answered (fst (play fuel l w)).
  Proof.
    induction l as [|[i c o|i|i c o k|xs sched|i c o xs sched] l IH]; intros w Hw Hl Hf; simpl; [constructor|..];
      apply Forall_cons in Hl as [He Hl]; [| |done..].
    - destruct (call_answered fuel i c o w Hw He Hf) as [H1 H2].
      destruct (do_call fuel i c o w) as [r w1]. specialize (IH w1 H2 Hl Hf).
      destruct (play fuel l w1) as [rs w2]. simpl in *. by constructor.
    - apply IH; [|done|done]. intros j o. unfold view, reopen, set_handle. simpl.
      destruct (Nat.eqb_spec j i) as [->|Hne]; [|by apply (Hw j o)].
      destruct (Hw i o) as [Hco _]. split; [exact Hco|]. simpl. intros q e. by rewrite lookup_empty.
  Qed.
End raw.

Lemma raw_reads fuel C l : sane C -> (node_count C < fuel)%nat -> Forall only_reads l ->
  Forall answered (fst (play fuel l (new_world C))).
Proof.
  intros HC Hf Hl. apply (play_answered C HC); [|done|done].
  intros i o. split; [done|]. simpl. intros q e. by rewrite lookup_empty.
Qed.

(** A sane core, decided. *)
Definition sane_nodeb (C : list bytes) (q i : nat) (nd : node) : bool :=
  (match n_children nd with [] => true | _ => (length (n_keys nd) <? length (n_children nd))%nat end) &&
  forallb (fun r : ref =>
    ((fst r <? q)%nat || ((fst r =? q)%nat && (i <? snd r)%nat)) &&
    match block_at C (fst r) with Some b => (snd r <? length (b_nodes b))%nat | None => true end) (n_children nd).
Fixpoint nodesb (C : list bytes) (q i : nat) (nds : list node) : bool :=
  match nds with [] => true | nd :: nds' => sane_nodeb C q i nd && nodesb C q (S i) nds' end.
Fixpoint blocksb (C : list bytes) (q : nat) (l : list bytes) : bool :=
  match l with
  | [] => true
  | raw :: l' =>
      match decode_block raw with DErr => true | DPanic => false | DOk b => nodesb C q 0 (b_nodes b) end && blocksb C (S q) l'
  end.
Definition saneb (C : list bytes) : bool :=
  blocksb C 0 C && match block_at C (length C - 1) with Some (Block [] _ _) => false | _ => true end.

Lemma sane_nodeb_ok C q i nd : sane_nodeb C q i nd = true -> sane_node C q i nd.
Proof.
  unfold sane_nodeb. rewrite andb_true_iff. intros [H1 H2]. split.
  - destruct (n_children nd); [by left|right; by apply Nat.ltb_lt].
  - rewrite forallb_forall in H2. apply Forall_forall. intros r Hr. apply elem_of_list_In in Hr.
    specialize (H2 r Hr). apply andb_true_iff in H2 as [H2 H3]. split.
    + apply orb_true_iff in H2 as [H2|H2]; [left; by apply Nat.ltb_lt|right].
      apply andb_true_iff in H2 as [H2 H4]. split; [by apply Nat.eqb_eq|by apply Nat.ltb_lt].
    + intros b Hb. rewrite Hb in H3. by apply Nat.ltb_lt.
Qed.
Lemma nodesb_ok C q nds : forall i0 i nd, nodesb C q i0 nds = true -> nds !! i = Some nd -> sane_node C q (i0 + i) nd.
Proof.
  induction nds as [|x nds IH]; intros i0 i nd H Hi; [done|]. simpl in H. apply andb_true_iff in H as [H1 H2].
  destruct i as [|i]; simpl in Hi.
  - injection Hi as ->. rewrite Nat.add_0_r. by apply sane_nodeb_ok.
  - replace (i0 + S i)%nat with (S i0 + i)%nat by lia. by apply IH.
Qed.
Lemma blocksb_ok C l : forall q0 q raw, blocksb C q0 l = true -> l !! q = Some raw ->
  match decode_block raw with DErr => True | DPanic => False | DOk b => forall i nd, b_nodes b !! i = Some nd -> sane_node C (q0 + q) i nd end.
Proof.
  induction l as [|x l IH]; intros q0 q raw H Hq; [done|]. cbn [blocksb] in H. apply andb_true_iff in H as [H1 H2].
  destruct q as [|q]; simpl in Hq.
  - injection Hq as ->. destruct (decode_block raw); [done|done|]. rewrite Nat.add_0_r. intros i nd. by apply (nodesb_ok C q0 (b_nodes b) 0).
  - replace (q0 + S q)%nat with (S q0 + q)%nat by lia. by apply IH.
Qed.
Lemma saneb_ok C : saneb C = true -> sane C.
Proof.
  unfold saneb. rewrite andb_true_iff. intros [H1 H2]. split_and!.
  - intros q raw Hq. pose proof (blocksb_ok C C 0 q raw H1 Hq) as H. by destruct (decode_block raw).
  - intros q b i nd Hb Hi. unfold block_at in Hb. destruct (C !! q) as [raw|] eqn:Hq; [|done]. simpl in Hb.
    pose proof (blocksb_ok C C 0 q raw H1 Hq) as H. destruct (decode_block raw) as [| |b']; [done..|]. injection Hb as ->. by apply H.
  - intros b Hb. rewrite Hb in H2. destruct b as [nds k v]. simpl. by destruct nds.
Qed.
