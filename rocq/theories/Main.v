(** The properties of whole histories, proved from the lemmas of [Hist]. *)
From Coq.Strings Require Import Byte.
From Coq Require Import Lia Sorting.Sorted.
From stdpp Require Import prelude gmap.
From Verif Require Import Bytes Codec Model CodecProofs Order Wp Store Tree Iter Read Zip Pure Seq Mut MutDel MutTop Commit Spec OrderProofs Client Abs Api Call Det Hist Busy Play.

(** ** Lists of entries *)
Lemma find_filter {A} (f g : A -> bool) l : (forall x, f x = true -> g x = true) -> List.find f (List.filter g l) = List.find f l.
Proof.
  intros H. induction l as [|x l IH]; [done|]. cbn [List.filter List.find]. destruct (f x) eqn:E.
  - rewrite (H _ E). cbn. by rewrite E.
  - destruct (g x); [cbn; by rewrite E|done].
Qed.
Lemma find_filter_none {A} (f g : A -> bool) l : (forall x, f x = true -> g x = false) -> List.find f (List.filter g l) = None.
Proof.
  intros H. induction l as [|x l IH]; [done|]. cbn [List.filter]. destruct (g x) eqn:E; [|done].
  cbn. destruct (f x) eqn:F; [|done]. rewrite (H _ F) in E. done.
Qed.
Lemma find_app {A} (f : A -> bool) l l' : List.find f (l ++ l') = match List.find f l with Some x => Some x | None => List.find f l' end.
Proof. induction l as [|x l IH]; [done|]. cbn. destruct (f x); [done|apply IH]. Qed.

Lemma lookup_put_same e m : lookup_key (kv_key e) (put_entry e m) = Some e.
Proof.
  unfold lookup_key, put_entry. rewrite find_app, find_filter_none.
  - cbn. by rewrite bool_decide_eq_true_2.
  - intros x Hx%bool_decide_eq_true. rewrite Hx. apply lexb_false. by right.
Qed.
Lemma lookup_put_other e m k : k <> kv_key e -> lookup_key k (put_entry e m) = lookup_key k m.
Proof.
  intros Hne. unfold lookup_key, put_entry. rewrite !find_app. cbn [List.find].
  rewrite (bool_decide_eq_false_2 (kv_key e = k)) by congruence.
  destruct (blt_total k (kv_key e)) as [H|[->|H]]; [|done|].
  - rewrite find_filter; [|intros x Hx%bool_decide_eq_true; rewrite Hx; by apply lexb_blt].
    rewrite find_filter_none; [by destruct (List.find _ m)|]. intros x Hx%bool_decide_eq_true. rewrite Hx. apply lexb_false. by left.
  - rewrite find_filter_none; [|intros x Hx%bool_decide_eq_true; rewrite Hx; apply lexb_false; by left].
    apply find_filter. intros x Hx%bool_decide_eq_true. rewrite Hx. by apply lexb_blt.
Qed.
Lemma lookup_remove_same k m : lookup_key k (remove_key k m) = None.
Proof. unfold lookup_key, remove_key. apply find_filter_none. intros x ->. done. Qed.
Lemma lookup_remove_other k k' m : k' <> k -> lookup_key k' (remove_key k m) = lookup_key k' m.
Proof.
  intros Hne. unfold lookup_key, remove_key. apply find_filter. intros x Hx%bool_decide_eq_true.
  rewrite bool_decide_eq_false_2; [done|congruence].
Qed.

(** ** Histories *)
Lemma play_app fuel l1 : forall l2 w, play fuel (l1 ++ l2) w =
  let '(rs1, w1) := play fuel l1 w in let '(rs2, w2) := play fuel l2 w1 in (rs1 ++ rs2, w2).
Proof.
  induction l1 as [|e l1 IH]; intros l2 w.
  - cbn. by destruct (play fuel l2 w).
  - destruct e as [i c o|i|i c o k|xs sched|i c o xs sched]; cbn [app play]; [|apply IH|apply IH|apply IH|].
    + destruct (do_call fuel i c o w) as [r w1]. rewrite IH. destruct (play fuel l1 w1) as [rs1 w2].
      by destruct (play fuel l2 w2) as [rs2 w3].
    + destruct (do_busy fuel i c o xs sched w) as [r w1]. rewrite IH. destruct (play fuel l1 w1) as [rs1 w2].
      by destruct (play fuel l2 w2) as [rs2 w3].
Qed.

(** From here on all that is in the core has been written by the library. *)
Global Instance own_base : Base := [].
Lemma valid_own C : valid C <-> (forall raw, C !! 0 = Some raw -> exists md, metadata_ok md /\ raw = header_block md) /\
  forall v, (1 <= v < length C)%nat -> layout C v.
Proof.
  split.
  - intros (_ & H1 & H2). split; [by apply H1|exact H2].
  - intros [H1 H2]. split_and!; [apply prefix_nil|by intros _|exact H2].
Qed.
Definition wi_own good w m t (HI : WInv good w m t) := proj1 (valid_own _) (wi_valid good w m t HI).
Lemma valid_nil : valid [].
Proof. apply valid_own. split; [done|]. simpl. lia. Qed.
Lemma rep_nil : rep [] [] None.
Proof. split; [simpl; lia|done]. Qed.

Lemma explains_grow l a rs b : explains l a rs b -> (with_header (s_blocks b) <= with_header (s_blocks a) + length l)%nat.
Proof.
  induction 1 as [a|i l a rs b H IH|i c o l a r a1 rs b Hs H IH|i c o l a r a1 rs b _ _ [Ha _] H IH|i c o k l a a1 rs b Ha _ H IH|xs sched l a rs b H IH|i c o xs sched l a r a1 rs b Hs H IH|i c o xs sched l a r a1 rs b _ _ [Ha _] H IH]; cbn [length].
  - lia.
  - lia.
  - pose proof (spec_call_grow c a) as G. rewrite Hs in G. cbn [snd] in G. lia.
  - pose proof (spec_call_grow c a) as G. destruct Ha as [-> |[-> | ->]]; [lia| |lia]. cbn [s_blocks] in IH. unfold with_header in *. lia.
  - pose proof (spec_call_grow c a) as G. destruct Ha as [-> |[-> | ->]]; [lia| |lia]. cbn [s_blocks] in IH. unfold with_header in *. lia.
  - lia.
  - pose proof (spec_call_grow c a) as G. rewrite Hs in G. cbn [snd] in G. lia.
  - pose proof (spec_call_grow c a) as G. destruct Ha as [-> |[-> | ->]]; [lia| |lia]. cbn [s_blocks] in IH. unfold with_header in *. lia.
Qed.

(** What a history leaves. *)
Lemma history_reach fuel n l : history fuel n l -> exists rs b t,
  play fuel l (new_world []) = (rs, world_after fuel l) /\ explains l empty_store rs b /\
  WInv (usable l) (world_after fuel l) (s_entries b) t /\ length (w_core (world_after fuel l)) = s_blocks b /\
  fits (world_after fuel l) n fuel.
Proof.
  intros (Ht & Hev & Hl & Hn).
  assert (exists rs w' b t', play fuel l (new_world []) = (rs, w') /\ explains l empty_store rs b /\
    WInv (usable l) w' (s_entries b) t' /\ length (w_core w') = s_blocks b /\ (with_header (length (w_core w')) <= S (length l))%nat) as H.
  { destruct (play_spec l fuel (new_world []) nobody [] None) as (rs & w' & b & t' & E1 & E2 & E3 & E4 & E5 & E6); [|done|done| |].
    - apply new_world_inv; [apply valid_nil|apply rep_nil].
    - split; cbn; lia.
    - exists rs, w', b, t'. split_and!; try done.
      rewrite E4. pose proof (explains_grow _ _ _ _ E2) as G. cbn in G. unfold with_header in *. lia. }
  destruct H as (rs & w' & b & t' & E1 & E2 & E3 & E4 & E5). exists rs, b, t'.
  assert (world_after fuel l = w') as -> by (unfold world_after; by rewrite E1).
  split_and!; try done. split; lia.
Qed.

Lemma no_fault : ~ has_fault [].
Proof. by intros H%Exists_nil. Qed.

Lemma call_clean g w m t fuel n i c : WInv g w m t -> g i -> fits w (S n) fuel -> call_ok c ->
  exists w', do_call fuel i c [] w = (inl (fst (spec_call c (Store (length (w_core w)) m))), w') /\
    took g c w w' m t /\ fits w' n fuel.
Proof.
  intros HI Hg [Hf1 Hf2] Hc. destruct (do_call_spec g w m t fuel i c [] HI Hg) as (r & w' & Hdo & Hout);
    [unfold chain_small; unfold with_header in *; lia|unfold with_header in *; lia|done|].
  destruct Hout as [[Hr Htk]|[Hx _]]; [|by apply no_fault in Hx]. exists w'. rewrite Hdo, Hr. split_and!; [done|done|].
  destruct Htk as (t' & _ & _ & Hl). pose proof (spec_call_grow c (Store (length (w_core w)) m)) as G. cbn [s_blocks] in G.
  split; rewrite Hl; lia.
Qed.

(** *** C01, C11, C20, C24: all replies are those of the specification *)
Lemma explains_clean l a rs b : explains l a rs b -> Forall clean l ->
  rs = map inl (fst (spec_run (calls_of l) a)) /\ b = snd (spec_run (calls_of l) a).
Proof.
  induction 1 as [a|i l a rs b H IH|i c o l a r a1 rs b Hs H IH|i c o l a r a1 rs b Hf _ Ha H IH|i c o k l a a1 rs b _ Ha H IH|xs sched l a rs b H IH|i c o xs sched l a r a1 rs b Hs H IH|i c o xs sched l a r a1 rs b Hf _ Ha H IH]; intros Hc.
  - done.
  - apply Forall_cons in Hc as [_ Hc]. by apply IH.
  - apply Forall_cons in Hc as [_ Hc]. destruct (IH Hc) as [-> ->]. cbn [calls_of spec_run]. rewrite Hs.
    by destruct (spec_run (calls_of l) a1).
  - apply Forall_cons in Hc as [Hc _]. by destruct Hc.
  - apply Forall_cons in Hc as [Hro Hc]. rewrite (Ha Hro) in IH. by apply IH.
  - apply Forall_cons in Hc as [_ Hc]. by apply IH.
  - apply Forall_cons in Hc as [_ Hc]. destruct (IH Hc) as [-> ->]. cbn [calls_of spec_run]. rewrite Hs.
    by destruct (spec_run (calls_of l) a1).
  - apply Forall_cons in Hc as [Hc _]. by destruct Hc.
Qed.

Lemma clean_trusted l : forall bad, Forall clean l -> (forall j, ~ bad j) -> trusted bad l /\ forall j, ~ bad_end l bad j.
Proof.
  induction l as [|e l IH]; intros bad Hc Hb; [done|]. apply Forall_cons in Hc as [He Hc].
  destruct (IH (bad_after e bad) Hc) as [H1 H2].
  - intros j. specialize (Hb j). destruct e as [i c o|i|i c o k|xs sched|i c o xs sched]; cbn in *; [|tauto..|]; (intros [H|[_ H]]; [done|]; by apply He, (spoils_fault c)).
  - split; [|done]. split; [|done]. destruct e; [intros; apply Hb|done|intros; apply Hb..].
Qed.

Lemma refines_map l fuel : Forall event_ok l -> Forall clean l -> (length l < fuel)%nat -> (N.of_nat (length l) + 1 < 2 ^ 50)%N ->
  let '(rs, b) := spec_run (calls_of l) empty_store in
  exists w, play fuel l (new_world []) = (map inl rs, w) /\ length (w_core w) = s_blocks b.
Proof.
  intros Hev Hc Hl Hn. destruct (clean_trusted l nobody Hc) as [Ht Hb]; [by intros j []|].
  destruct (history_reach fuel 0 l) as (rs & b & t & E1 & E2 & E3 & E4 & E5); [split_and!; [done|done|lia|lia]|].
  destruct (explains_clean _ _ _ _ E2 Hc) as [-> ->]. destruct (spec_run (calls_of l) empty_store) as [rs b].
  exists (world_after fuel l). done.
Qed.

Lemma faulty_histories l fuel : history fuel 0 l ->
  exists rs b, play fuel l (new_world []) = (rs, world_after fuel l) /\ explains l empty_store rs b /\
    length (w_core (world_after fuel l)) = s_blocks b.
Proof.
  intros H. destruct (history_reach _ _ _ H) as (rs & b & t & E1 & E2 & E3 & E4 & E5). by exists rs, b.
Qed.

Ltac reach H := destruct (history_reach _ _ _ H) as (rs & [N m] & t & E1 & E2 & HI & HN & Hfit); cbn [s_entries s_blocks] in *.
Ltac call H i := edestruct (call_clean _ _ _ _ _ _ i _ H) as (? & ? & ? & ?); [done|done|done|].

(** *** C02 *)
Lemma read_your_write fuel l i j j' k k' v : history fuel 3 l -> usable l i -> usable l j -> usable l j' -> call_ok (CPut k v) ->
  exists old q x w1, 
    do_call fuel i (CPut k v) [] (world_after fuel l) = (inl (RPut old q), w1) /\
    fst (do_call fuel j (CGet k) [] w1) = inl (RGet (Some (q, v))) /\
    (k' <> k -> fst (do_call fuel j' (CGet k') [] (world_after fuel l)) = inl (RGet x) /\
                fst (do_call fuel j' (CGet k') [] w1) = inl (RGet x)).
Proof.
  intros H Hi Hj Hj' Hc. reach H.
  destruct (call_clean _ _ _ _ _ _ i (CPut k v) HI Hi Hfit Hc) as (w1 & D1 & (t1 & _ & HI1 & _) & F1).
  destruct (call_clean _ _ _ _ _ _ j (CGet k) HI1 Hj F1 I) as (w2 & D2 & _ & _).
  destruct (call_clean _ _ _ _ _ _ j' (CGet k') HI1 Hj' F1 I) as (w3 & D3 & _ & _).
  destruct (call_clean _ _ _ _ _ _ j' (CGet k') HI Hj' Hfit I) as (w4 & D4 & _ & _).
  cbn [spec_call spec_put s_blocks s_entries fst snd] in *.
  eexists _, _, _, w1. split_and!; [exact D1| |].
  - rewrite D2. cbn [fst]. change k with (kv_key (KV (with_header (length (w_core (world_after fuel l)))) k v)) at 1. by rewrite lookup_put_same.
  - intros Hne. rewrite D3, D4. cbn [fst]. split; [reflexivity|]. by rewrite lookup_put_other.
Qed.

(** What the map satisfies. *)
Lemma rep_sorted C m t : rep C m t -> StronglySorted (fun a b => blt (kv_key a) (kv_key b)) m.
Proof.
  destruct t as [T|]; [|intros [_ ->]; constructor]. intros (_ & h & HW & ->).
  pose proof (wf_sort _ _ _ _ HW) as H. unfold ksorted in H. revert H. generalize (flat T) as l. intros l.
  induction l as [|k l IH]; intros H; [constructor|]. cbn [map] in *. inversion H as [|? ? H1 H2]; subst. constructor; [by apply IH|].
  apply Forall_forall. intros e (k' & -> & Hk')%elem_of_list_fmap. rewrite Forall_forall in H2. apply (H2 (keyof (kd C) k')).
  by apply elem_of_list_fmap_1.
Qed.

Lemma sorted_lookup m e : StronglySorted (fun a b => blt (kv_key a) (kv_key b)) m ->
  e ∈ m <-> lookup_key (kv_key e) m = Some e.
Proof.
  intros Hs. unfold lookup_key. split.
  - induction Hs as [|x m Hs IH Hx]; [by intros ?%elem_of_nil|]. intros [->|He]%elem_of_cons; cbn.
    + by rewrite bool_decide_eq_true_2.
    + rewrite bool_decide_eq_false_2; [by apply IH|]. intros E. rewrite Forall_forall in Hx. specialize (Hx e He). rewrite E in Hx.
      by apply blt_irrefl in Hx.
  - intros H. apply List.find_some in H as [H _]. by apply elem_of_list_In.
Qed.

Lemma behaves_rep fuel C m t : valid C -> rep C m t -> behaves fuel C (Store (length C) m).
Proof.
  intros HV Hr l Hev Hc Hl Hn. destruct (clean_trusted l nobody Hc) as [Ht Hb]; [by intros j []|].
  destruct (play_spec l fuel (new_world C) nobody m t) as (rs & w' & b & t' & E1 & E2 & E3 & E4 & E5 & E6); [|done|done| |].
  - by apply new_world_inv.
  - done.
  - destruct (explains_clean _ _ _ _ E2 Hc) as [-> ->]. by exists w'.
Qed.

Lemma took_det g g' c w w1 w2 m t : rep (w_core w) m t -> took g c w w1 m t -> took g' c w w2 m t -> w_core w1 = w_core w2.
Proof. intros Hr (t1 & H1 & _) (t2 & H2 & _). by destruct (effect_det _ _ _ _ _ _ _ _ Hr H1 H2). Qed.

(** *** C03 *)
Lemma delete_one fuel l i j j' k k' : history fuel 3 l -> usable l i -> usable l j -> usable l j' -> call_ok (CDel k) ->
  exists x x' w1,
    fst (do_call fuel i (CGet k) [] (world_after fuel l)) = inl (RGet x) /\
    do_call fuel i (CDel k) [] (world_after fuel l) = (inl (RDel (fst <$> x)), w1) /\
    fst (do_call fuel j (CGet k) [] w1) = inl (RGet None) /\
    (k' <> k -> fst (do_call fuel j' (CGet k') [] (world_after fuel l)) = inl (RGet x') /\
                fst (do_call fuel j' (CGet k') [] w1) = inl (RGet x')) /\
    (x = None -> w_core w1 = w_core (world_after fuel l)).
Proof.
  intros H Hi Hj Hj' Hc. reach H.
  destruct (call_clean _ _ _ _ _ _ i (CDel k) HI Hi Hfit Hc) as (w1 & D1 & (t1 & He & HI1 & _) & F1).
  destruct (call_clean _ _ _ _ _ _ i (CGet k) HI Hi Hfit I) as (w0 & D0 & _ & _).
  destruct (call_clean _ _ _ _ _ _ j (CGet k) HI1 Hj F1 I) as (w2 & D2 & _ & _).
  destruct (call_clean _ _ _ _ _ _ j' (CGet k') HI1 Hj' F1 I) as (w3 & D3 & _ & _).
  destruct (call_clean _ _ _ _ _ _ j' (CGet k') HI Hj' Hfit I) as (w4 & D4 & _ & _).
  unfold effect in He. unfold spec_call, spec_del in *. cbn [s_blocks s_entries fst snd] in *.
  exists ((fun e => (kv_seq e, kv_value e)) <$> lookup_key k m), ((fun e => (kv_seq e, kv_value e)) <$> lookup_key k' m), w1. rewrite D0, D1, D2, D3, D4. destruct (lookup_key k m) as [e|] eqn:Ek; cbn [fst snd s_entries fmap option_fmap option_map] in *; split_and!; try done.
  - by rewrite lookup_remove_same.
  - intros Hne. split; [done|]. by rewrite lookup_remove_other.
  - by rewrite Ek.
  - intros _. apply He.
Qed.

(** *** C04 *)
Lemma put_reports fuel l i j k v : history fuel 2 l -> usable l i -> usable l j -> call_ok (CPut k v) ->
  exists x n w1,
    fst (do_call fuel i (CGet k) [] (world_after fuel l)) = inl (RGet x) /\
    fst (do_call fuel i CVersion [] (world_after fuel l)) = inl (RVersion n) /\
    do_call fuel i (CPut k v) [] (world_after fuel l) = (inl (RPut (fst <$> x) (Nat.max 1 n)), w1) /\
    fst (do_call fuel j CVersion [] w1) = inl (RVersion (S (Nat.max 1 n))) /\
    length (w_core (world_after fuel l)) = n.
Proof.
  intros H Hi Hj Hc. reach H.
  destruct (call_clean _ _ _ _ _ _ i (CPut k v) HI Hi Hfit Hc) as (w1 & D1 & (t1 & He & HI1 & Hl1) & F1).
  destruct (call_clean _ _ _ _ _ _ i (CGet k) HI Hi Hfit I) as (w0 & D0 & _ & _).
  destruct (call_clean _ _ _ _ _ _ i CVersion HI Hi Hfit I) as (w2 & D2 & _ & _).
  destruct (call_clean _ _ _ _ _ _ j CVersion HI1 Hj F1 I) as (w3 & D3 & _ & _).
  exists ((fun e => (kv_seq e, kv_value e)) <$> lookup_key k m), (length (w_core (world_after fuel l))), w1. rewrite D0, D1, D2, D3. unfold spec_call, spec_put, with_header in *. cbn [s_blocks s_entries fst snd] in *. split_and!; try done.
  - by destruct (lookup_key k m).
  - by rewrite Hl1.
Qed.

(** *** C05 *)
Lemma put_cas_faithful fuel l i j k k' v f : history fuel 2 l -> usable l i -> usable l j -> call_ok (CPut k v) ->
  exists x x' wp w1 r1,
    let w := world_after fuel l in
    let old := (fun y => KV (fst y) k (snd y)) <$> x in
    let q := Nat.max 1 (length (w_core w)) in
    fst (do_call fuel i (CGet k) [] w) = inl (RGet x) /\
    do_call fuel i (CPut k v) [] w = (inl (RPut (fst <$> x) q), wp) /\
    do_call fuel i (CPutCas k v f) [] w = (inl r1, w1) /\
    (f old (KV q k v) = true -> r1 = RPutCas (fst <$> x) (Some q) /\ w_core w1 = w_core wp /\
       fst (do_call fuel j (CGet k) [] w1) = inl (RGet (Some (q, v)))) /\
    (f old (KV q k v) = false -> r1 = RPutCas (fst <$> x) None /\
       fst (do_call fuel j (CGet k') [] w) = inl (RGet x') /\ fst (do_call fuel j (CGet k') [] w1) = inl (RGet x')).
Proof.
  intros H Hi Hj Hc. reach H.
  destruct (call_clean _ _ _ _ _ _ i (CGet k) HI Hi Hfit I) as (w0 & D0 & _ & _).
  destruct (call_clean _ _ _ _ _ _ i (CPut k v) HI Hi Hfit Hc) as (wp & D1 & T1 & F1).
  destruct (call_clean _ _ _ _ _ _ i (CPutCas k v f) HI Hi Hfit Hc) as (w1 & D2 & (t2 & He2 & HI2 & Hl2) & F2).
  destruct (call_clean _ _ _ _ _ _ j (CGet k) HI2 Hj F2 I) as (w3 & D3 & _ & _).
  destruct (call_clean _ _ _ _ _ _ j (CGet k') HI2 Hj F2 I) as (w4 & D4 & _ & _).
  destruct (call_clean _ _ _ _ _ _ j (CGet k') HI Hj Hfit I) as (w5 & D5 & _ & _).
  assert ((fun y : nat * option bytes => KV (fst y) k (snd y)) <$> ((fun e => (kv_seq e, kv_value e)) <$> lookup_key k m) = lookup_key k m) as Eold.
  { destruct (lookup_key k m) as [e|] eqn:Ek; [|done]. cbn. apply lookup_key_spec in Ek as [_ <-]. by destruct e. }
  exists ((fun e => (kv_seq e, kv_value e)) <$> lookup_key k m), ((fun e => (kv_seq e, kv_value e)) <$> lookup_key k' m), wp, w1. eexists. cbn zeta. rewrite D0. split_and!; [done| |exact D2| |].
  - rewrite D1. unfold spec_call, spec_put, with_header. cbn [s_blocks s_entries fst snd]. f_equal. f_equal. f_equal. by destruct (lookup_key k m).
  - rewrite Eold. intros Hf. unfold effect in He2. rewrite headed_length in He2. unfold spec_call, spec_put, with_header in *.
    cbn [s_blocks s_entries fst snd] in *. rewrite Hf in *. cbn [s_blocks s_entries fst snd] in *.
    split_and!; [by destruct (lookup_key k m)| |].
    + destruct T1 as (t1 & He1 & _). by destruct (effect_det (CPut k v) _ _ _ _ _ _ _ (wi_rep _ _ _ _ HI) He2 He1).
    + rewrite D3. cbn [fst]. change k with (kv_key (KV (Nat.max 1 (length (w_core (world_after fuel l)))) k v)) at 1. by rewrite lookup_put_same.
  - rewrite Eold. intros Hf. rewrite D4, D5. unfold spec_call, spec_put, with_header in *. cbn [s_blocks s_entries fst snd] in *. rewrite Hf in *.
    cbn [s_blocks s_entries fst snd] in *. split_and!; [by destruct (lookup_key k m)|done|done].
Qed.

(** *** C06 *)
Lemma del_cas_faithful fuel l i j k k' f : history fuel 2 l -> usable l i -> usable l j -> call_ok (CDel k) ->
  exists x x' wd w1 r1,
    let w := world_after fuel l in
    fst (do_call fuel i (CGet k) [] w) = inl (RGet x) /\
    do_call fuel i (CDel k) [] w = (inl (RDel (fst <$> x)), wd) /\
    do_call fuel i (CDelCas k f) [] w = (inl r1, w1) /\
    match x with
    | None => r1 = RDelCas None /\ w_core w1 = w_core w
    | Some (s, v) =>
        if f (KV s k v)
        then r1 = RDelCas (Some (true, s)) /\ w_core w1 = w_core wd /\ fst (do_call fuel j (CGet k) [] w1) = inl (RGet None)
        else r1 = RDelCas (Some (false, s)) /\ w_core w1 = w_core w /\
             fst (do_call fuel j (CGet k') [] w) = inl (RGet x') /\ fst (do_call fuel j (CGet k') [] w1) = inl (RGet x')
    end.
Proof.
  intros H Hi Hj Hc. reach H.
  destruct (call_clean _ _ _ _ _ _ i (CGet k) HI Hi Hfit I) as (w0 & D0 & _ & _).
  destruct (call_clean _ _ _ _ _ _ i (CDel k) HI Hi Hfit Hc) as (wd & D1 & T1 & F1).
  destruct (call_clean _ _ _ _ _ _ i (CDelCas k f) HI Hi Hfit Hc) as (w1 & D2 & (t2 & He2 & HI2 & Hl2) & F2).
  destruct (call_clean _ _ _ _ _ _ j (CGet k) HI2 Hj F2 I) as (w3 & D3 & _ & _).
  destruct (call_clean _ _ _ _ _ _ j (CGet k') HI2 Hj F2 I) as (w4 & D4 & _ & _).
  destruct (call_clean _ _ _ _ _ _ j (CGet k') HI Hj Hfit I) as (w5 & D5 & _ & _).
  exists ((fun e => (kv_seq e, kv_value e)) <$> lookup_key k m), ((fun e => (kv_seq e, kv_value e)) <$> lookup_key k' m), wd, w1. eexists. cbn zeta. rewrite D0. split_and!; [done| |exact D2|].
  - rewrite D1. unfold spec_call, spec_del. cbn [s_blocks s_entries fst snd]. by destruct (lookup_key k m).
  - rewrite D3, D4, D5. unfold spec_call, spec_del, effect in *. destruct T1 as (t1 & He1 & _).
    cbn [s_blocks s_entries fst snd] in *. destruct (lookup_key k m) as [e|] eqn:Ek; cbn [fmap option_fmap option_map].
    2:{ split; [done|]. apply He2. }
    assert (KV (kv_seq e) k (kv_value e) = e) as -> by (apply lookup_key_spec in Ek as [_ <-]; by destruct e).
    destruct (f e); cbn [s_blocks s_entries fst snd] in *.
    + split_and!; [done| |by rewrite lookup_remove_same].
      assert (effect (CDel k) (w_core (world_after fuel l)) m t (w_core wd) t1) as G1 by exact He1.
      assert (effect (CDel k) (w_core (world_after fuel l)) m t (w_core w1) t2) as G2 by (unfold effect; rewrite Ek; exact He2).
      by destruct (effect_det _ _ _ _ _ _ _ _ (wi_rep _ _ _ _ HI) G2 G1).
    + split_and!; [done|apply He2|done|done].
Qed.

(** *** C07, C08 *)
Lemma append_nothing fuel l i c : history fuel 1 l -> usable l i -> call_ok c ->
  let w := world_after fuel l in
  exists r w1, do_call fuel i c [] w = (inl r, w1) /\
    (reads_only c -> w_core w1 = w_core w) /\
    (refused r -> w_core w1 = w_core w \/ (w_core w = [] /\ w_core w1 = [header_block None])) /\
    (stored_one r -> exists raw k v, w_core w1 = headed (w_core w) ++ [raw] /\
      written c = Some (k, v) /\ block_holds (w_core w1) (length (headed (w_core w))) k v).
Proof.
  intros H Hi Hc. reach H. cbn zeta.
  destruct (call_clean _ _ _ _ _ _ i c HI Hi Hfit Hc) as (w1 & D1 & (t1 & He & HI1 & Hl1) & F1).
  eexists _, w1. split; [exact D1|]. clear D1 HI1 Hl1.
  assert (forall C raw nds k v, blk (C ++ [raw]) (length C) = Some (Block nds k v) -> block_holds (C ++ [raw]) (length C) k v) as Hbh.
  { intros C raw nds k v Hb. exists raw, nds. rewrite blk_snoc in Hb. split; [by rewrite lookup_app_r, Nat.sub_diag by lia|].
    destruct (decode_block raw); by simplify_eq. }
  assert (forall k v, written c = Some (k, v) ->
    (exists T', t1 = Some T' /\ appends (headed (w_core (world_after fuel l))) (put_ghost (headed (w_core (world_after fuel l))) k t) k v (w_core w1) T') ->
    exists raw k v, w_core w1 = headed (w_core (world_after fuel l)) ++ [raw] /\
      written c = Some (k, v) /\ block_holds (w_core w1) (length (headed (w_core (world_after fuel l)))) k v) as Hput.
  { intros k v Hw (T & _ & _ & -> & Hb). eexists _, k, v. split_and!; [done|done|]. by eapply Hbh. }
  assert (forall k e, written c = Some (k, None) -> lookup_key k m = Some e ->
    (exists T', t1 = Some T' /\ appends (w_core (world_after fuel l)) (del_ghost (w_core (world_after fuel l)) k t) k None (w_core w1) T') ->
    exists raw k v, w_core w1 = headed (w_core (world_after fuel l)) ++ [raw] /\
      written c = Some (k, v) /\ block_holds (w_core w1) (length (headed (w_core (world_after fuel l)))) k v) as Hdel.
  { intros k e Hw Hk (T & _ & _ & -> & Hb). rewrite headed_some.
    - eexists _, k, None. split_and!; [done|done|]. by eapply Hbh.
    - apply lookup_key_spec in Hk as [Hk _]. destruct (rep_blocks _ _ _ _ (wi_rep _ _ _ _ HI) Hk). lia. }
  assert (w_core w1 = headed (w_core (world_after fuel l)) -> w_core w1 = w_core (world_after fuel l) \/
    (w_core (world_after fuel l) = [] /\ w_core w1 = [header_block None])) as Hh.
  { intros ->. destruct (w_core (world_after fuel l)); [right; done|by left]. }
  unfold effect in He. rewrite headed_length in He.
  destruct c as [k|k v|k v f|k|k f| |md|conf]; unfold spec_call, spec_put, spec_del; cbn [s_blocks s_entries fst snd].
  - split_and!; intros []. apply He.
  - split_and!; [intros []|intros []|intros _]. by eapply Hput.
  - destruct (f _ _); cbn; split_and!; intros []; [by eapply Hput|]. apply Hh, He.
  - destruct (lookup_key k m) eqn:Ek; cbn; split_and!; intros []; [by eapply Hdel|]. left. apply He.
  - destruct (lookup_key k m) as [e|] eqn:Ek; cbn; [|split_and!; intros []; left; apply He].
    destruct (f e); cbn; split_and!; intros []; [by eapply Hdel|]. left. apply He.
  - split_and!; intros []. apply He.
  - destruct (Nat.eqb_spec (length (w_core (world_after fuel l))) 0); cbn; split_and!; intros [].
    left. destruct He as [_ ->]. by destruct (w_core (world_after fuel l)).
  - destruct (Nat.leb_spec (length (w_core (world_after fuel l))) 1); cbn; split_and!; intros []; try (left; apply He); apply He.
Qed.

Lemma append_only fuel n l1 l2 : history fuel n (l1 ++ l2) -> history fuel n l1 ->
  w_core (world_after fuel l1) `prefix_of` w_core (world_after fuel (l1 ++ l2)).
Proof.
  intros (Ht & Hev & Hl & Hn) H1. destruct (history_reach fuel n l1 H1) as (rs & b & t & E1 & E2 & HI & HN & Hfit).
  assert (forall l1 bad, trusted bad (l1 ++ l2) -> trusted (bad_end l1 bad) l2) as Htr.
  { clear. induction l1 as [|e l1 IH]; intros bad; [done|]. intros [_ H]. by apply IH. }
  apply Htr in Ht. apply Forall_app in Hev as [_ Hev].
  destruct (play_spec l2 fuel (world_after fuel l1) (bad_end l1 nobody) _ t HI Ht Hev) as (rs2 & w' & b2 & t' & F1 & F2 & F3 & F4 & F5 & F6).
  { pose proof (explains_grow _ _ _ _ E2) as G. rewrite app_length in Hl, Hn. unfold fits. rewrite HN. cbn in G. unfold with_header in *. lia. }
  assert (world_after fuel (l1 ++ l2) = w') as ->; [|done].
  unfold world_after at 1. rewrite play_app, E1, F1. done.
Qed.

(** *** C12, C13 *)
Lemma build_bounds_ok b conf : build b = Some conf -> bounds_ok conf.
Proof.
  intros H%build_consistent. unfold bounds_ok. destruct (t_rev conf); [by left|]. right.
  destruct (t_min conf) as [a| |] eqn:Emin; [|done|done]. intros Hi. unfold consistent in H. rewrite Emin in H. unfold below_max.
  destruct H as [H|[[? _]|[? _]]]; [|done|done]. destruct (t_max conf) as [b'| |]; [|done|done].
  destruct H as [H|(-> & _ & ->)]; [by rewrite (proj2 (lexb_blt _ _) H)|]. by rewrite bool_decide_eq_true_2, orb_true_r.
Qed.

Lemma in_order_sorted conf m : t_rev conf = false -> StronglySorted (fun a b => blt (kv_key a) (kv_key b)) m ->
  StronglySorted (fun a b => blt (kv_key a) (kv_key b)) (range conf m).
Proof.
  intros E Hs. unfold range, in_order. rewrite E. induction Hs as [|x m Hs IH Hx]; cbn; [constructor|].
  destruct (within conf x); [|done]. constructor; [done|]. rewrite Forall_forall in *. intros y Hy. apply Hx.
  apply elem_of_list_In, List.filter_In in Hy as [Hy _]. by apply elem_of_list_In.
Qed.

Lemma elem_of_range conf m e : e ∈ range conf m <-> e ∈ m /\ within conf e = true.
Proof.
  unfold range, in_order. destruct (t_rev conf).
  - rewrite !elem_of_list_In, <-in_rev, List.filter_In. done.
  - rewrite !elem_of_list_In, List.filter_In. done.
Qed.

Lemma forward_traversal fuel l i j conf : history fuel 1 l -> usable l i -> usable l j -> bounds_ok conf -> t_rev conf = false ->
  (2 <= length (w_core (world_after fuel l)))%nat ->
  exists es,
    fst (do_call fuel i (CTraverse conf) [] (world_after fuel l)) = inl (RItems (map IOk es) false) /\
    StronglySorted (fun a b => key_lt (kv_key a) (kv_key b)) es /\
    forall k q v, KV q k v ∈ es <->
      fst (do_call fuel j (CGet k) [] (world_after fuel l)) = inl (RGet (Some (q, v))) /\
      above_min conf k = true /\ below_max conf k = true.
Proof.
  intros H Hi Hj Hb Hr H2. reach H.
  destruct (call_clean _ _ _ _ _ _ i (CTraverse conf) HI Hi Hfit Hb) as (w1 & D1 & _ & _).
  pose proof (rep_sorted _ _ _ (wi_rep _ _ _ _ HI)) as Hs.
  exists (range conf m). split_and!.
  - rewrite D1. cbn [spec_call s_blocks s_entries]. destruct (Nat.leb_spec (length (w_core (world_after fuel l))) 1); [lia|done].
  - pose proof (in_order_sorted conf m Hr Hs) as G. induction G as [|x m' _ IH Hx]; constructor; [done|].
    eapply Forall_impl; [exact Hx|]. intros y. apply key_lt_blt.
  - intros k q v. destruct (call_clean _ _ _ _ _ _ j (CGet k) HI Hj Hfit I) as (w2 & D2 & _ & _). rewrite D2. cbn [fst spec_call s_entries].
    rewrite elem_of_range, (sorted_lookup _ _ Hs). cbn [kv_key]. unfold within. cbn [kv_key]. rewrite andb_true_iff. split.
    + intros [-> Hw]. done.
    + intros [E Hw]. split; [|done]. destruct (lookup_key k m) as [[q' k' v']|] eqn:Ek; [|done]. cbn in E. injection E as -> ->.
      by apply lookup_key_spec in Ek as [_ <-].
Qed.

Lemma reverse_traversal fuel l i j mn mni mx mxi : 
  let fw := Config mn mni mx mxi false in let bw := Config mn mni mx mxi true in
  history fuel 1 l -> usable l i -> usable l j -> bounds_ok fw ->
  (2 <= length (w_core (world_after fuel l)))%nat ->
  exists es,
    fst (do_call fuel i (CTraverse fw) [] (world_after fuel l)) = inl (RItems (map IOk es) false) /\
    fst (do_call fuel j (CTraverse bw) [] (world_after fuel l)) = inl (RItems (map IOk (rev es)) false).
Proof.
  intros fw bw H Hi Hj Hb H2. reach H. assert (bounds_ok bw) as Hb' by (by left).
  destruct (call_clean _ _ _ _ _ _ i (CTraverse fw) HI Hi Hfit Hb) as (w1 & D1 & _ & _).
  destruct (call_clean _ _ _ _ _ _ j (CTraverse bw) HI Hj Hfit Hb') as (w2 & D2 & _ & _).
  exists (range fw m). rewrite D1, D2. cbn [spec_call s_blocks s_entries].
  destruct (Nat.leb_spec (length (w_core (world_after fuel l))) 1); [lia|]. done.
Qed.

Lemma reverse_traversal_always fuel l i conf : history fuel 1 l -> usable l i -> t_rev conf = true ->
  (2 <= length (w_core (world_after fuel l)))%nat ->
  exists rs b, play fuel l (new_world []) = (rs, world_after fuel l) /\ explains l empty_store rs b /\
    fst (do_call fuel i (CTraverse conf) [] (world_after fuel l)) = inl (RItems (map IOk (range conf (s_entries b))) false).
Proof.
  intros H Hi Hb H2. reach H. exists rs, (Store N m). split_and!; [done|done|].
  destruct (call_clean _ _ _ _ _ _ i (CTraverse conf) HI Hi Hfit (or_introl Hb)) as (w1 & D1 & _ & _).
  rewrite D1. cbn [spec_call s_blocks s_entries].
  destruct (Nat.leb_spec (length (w_core (world_after fuel l))) 1); [lia|]. done.
Qed.

(** *** C20, C21 *)
Lemma reopen_same fuel l i j c : history fuel 1 l -> usable l i -> call_ok c ->
  exists r w1 w2, do_call fuel i c [] (world_after fuel l) = (inl r, w1) /\
    do_call fuel j c [] (reopen j (world_after fuel l)) = (inl r, w2) /\ w_core w1 = w_core w2.
Proof.
  intros H Hi Hc. reach H.
  destruct (call_clean _ _ _ _ _ _ i c HI Hi Hfit Hc) as (w1 & D1 & T1 & _).
  destruct (call_clean _ _ _ _ _ _ j c (reopen_inv _ j _ _ _ HI) (or_intror eq_refl) Hfit Hc) as (w2 & D2 & T2 & _).
  eexists _, w1, w2. split_and!; [exact D1|exact D2|]. destruct T1 as (t1 & G1 & _), T2 as (t2 & G2 & _).
  by destruct (effect_det _ _ _ _ _ _ _ _ (wi_rep _ _ _ _ HI) G1 G2).
Qed.

Lemma reopen_behaves fuel l : history fuel 0 l -> exists rs b,
  play fuel l (new_world []) = (rs, world_after fuel l) /\ explains l empty_store rs b /\
  behaves fuel (w_core (world_after fuel l)) b.
Proof.
  intros H. reach H. exists rs, (Store N m). split_and!; [done|done|]. rewrite <-HN.
  eapply behaves_rep; apply HI.
Qed.

Lemma history_prefix fuel n l1 l2 : history fuel n (l1 ++ l2) -> history fuel n l1.
Proof.
  intros (Ht & Hev & Hl & Hn). rewrite app_length in Hl, Hn. split_and!; [|by apply Forall_app in Hev as [? _]|lia|lia].
  clear -Ht. revert Ht. generalize nobody. induction l1 as [|e l1 IH]; intros bad; [done|]. intros [H1 H2]. split; [done|]. by apply IH.
Qed.

Lemma versions_readable fuel l1 l2 : history fuel 0 (l1 ++ l2) -> exists rs b,
  play fuel l1 (new_world []) = (rs, world_after fuel l1) /\ explains l1 empty_store rs b /\
  s_blocks b = length (w_core (world_after fuel l1)) /\
  behaves fuel (take (s_blocks b) (w_core (world_after fuel (l1 ++ l2)))) b.
Proof.
  intros H. pose proof (history_prefix _ _ _ _ H) as H1. pose proof (append_only _ _ _ _ H H1) as [k Hk].
  reach H1. exists rs, (Store N m). split_and!; [done|done|done|]. cbn [s_blocks]. rewrite Hk, <-HN, take_app.
  eapply behaves_rep; apply HI.
Qed.

(** Every length of the core is that of some version, or that of the bare header. *)
Lemma all_lengths fuel l n : history fuel 0 l -> (n <= length (w_core (world_after fuel l)))%nat ->
  n = 1 \/ exists l1 l2, l = l1 ++ l2 /\ length (w_core (world_after fuel l1)) = n.
Proof.
  intros H Hn. induction l as [|e l IH] using rev_ind.
  - right. exists [], []. split; [done|]. cbn in *. lia.
  - pose proof (history_prefix _ _ _ _ H) as H1.
    destruct (decide (n <= length (w_core (world_after fuel l)))%nat) as [Hle|Hgt].
    + destruct (IH H1 Hle) as [?|(l1 & l2 & -> & E)]; [by left|]. right. exists l1, (l2 ++ [e]). by rewrite app_assoc.
    + destruct (decide (n = length (w_core (world_after fuel (l ++ [e]))))) as [->|Hne].
      { right. exists (l ++ [e]), []. by rewrite app_nil_r. }
      left. destruct (history_reach _ _ _ H1) as (rs & b & t & E1 & E2 & HI & HN & Hfit).
      destruct (history_reach _ _ _ H) as (rs' & b' & t' & E1' & E2' & HI' & HN' & Hfit').
      assert (world_after fuel (l ++ [e]) = snd (play fuel [e] (world_after fuel l))) as Ew.
      { unfold world_after at 1. rewrite play_app, E1. by destruct (play fuel [e] (world_after fuel l)). }
      destruct H as (Ht & Hev & Hl & Hlen). rewrite app_length in Hl, Hlen. cbn [length] in Hl, Hlen.
      assert (trusted (bad_end l nobody) [e]) as Hte.
      { clear -Ht. revert Ht. generalize nobody. induction l as [|e' l IH]; intros bad; [done|]. intros [_ H]. by apply (IH _ H). }
      apply Forall_app in Hev as [_ Hev].
      destruct (history_reach fuel 1 l) as (rs0 & b0 & t0 & E3 & _ & HI3 & _ & Hfit3).
      { destruct H1 as (? & ? & _). split_and!; [done|done|lia|lia]. }
      destruct (play_spec [e] fuel _ _ _ _ HI3 Hte Hev Hfit3) as (rs4 & w4 & b4 & t4 & P1 & P2 & _ & P4 & _).
      rewrite P1 in Ew. cbn [snd] in Ew. rewrite Ew in *. pose proof (explains_grow _ _ _ _ P2) as G. rewrite <-P4 in G. cbn [s_blocks length] in G.
      unfold with_header in *. lia.
Qed.

Lemma header_only_behaves fuel l : history fuel 0 l -> (1 <= length (w_core (world_after fuel l)))%nat ->
  behaves fuel (take 1 (w_core (world_after fuel l))) (Store 1 []).
Proof.
  intros H Hl. reach H. destruct (wi_own _ _ _ _ HI) as [Hh _].
  destruct (w_core (world_after fuel l)) as [|raw C]; [cbn in Hl; lia|]. cbn [take].
  eapply (behaves_rep fuel [raw] [] None); [|split; [cbn; lia|done]]. apply valid_own. split; [|cbn; lia]. intros raw' [= <-]. by apply Hh.
Qed.

(** *** C22 *)
Lemma crash fuel l i c o k : history fuel 1 l -> usable l i -> call_ok c ->
  let w := world_after fuel l in
  exists rs b b1, play fuel l (new_world []) = (rs, w) /\ explains l empty_store rs b /\
    after_failure c b b1 /\ behaves fuel (core (snd (run_upto k (api fuel c) (view w i o)))) b1.
Proof.
  intros H Hi Hc. reach H. cbn zeta.
  destruct (crash_core _ _ _ _ fuel i c o k HI Hi Hfit Hc) as (b1 & Ha & t1 & Hv & Hr & Hlen & _). rewrite HN in Ha.
  exists rs, (Store N m), b1. split_and!; [done|done|done|].
  replace b1 with (Store (length (core (snd (run_upto k (api fuel c) (view (world_after fuel l) i o))))) (s_entries b1)); [by eapply behaves_rep|].
  destruct b1. cbn in *. by rewrite Hlen.
Qed.

(** *** C34, for any core *)
Lemma leb_1 n : (n <= 1)%nat -> (n <=? 1)%nat = true.
Proof. intros. by apply Nat.leb_le. Qed.
Lemma rootless_traverse fuel w i o conf : (length (w_core w) <= 1)%nat ->
  exists w1, do_call fuel i (CTraverse conf) o w = (inl (RErr ENoRoot), w1) /\ w_core w1 = w_core w.
Proof. intros H%leb_1. unfold do_call. cbn. unfold get_root. cbn. rewrite H, andb_false_r. cbn. eauto. Qed.
Lemma rootless_get fuel w i o k : (length (w_core w) <= 1)%nat ->
  exists w1, do_call fuel i (CGet k) o w = (inl (RGet None), w1) /\ w_core w1 = w_core w.
Proof. intros H%leb_1. unfold do_call. cbn. unfold get_root. cbn. rewrite H, andb_false_r. cbn. eauto. Qed.
Lemma rootless_del fuel w i o k : (length (w_core w) <= 1)%nat ->
  exists w1, do_call fuel i (CDel k) o w = (inl (RDel None), w1) /\ w_core w1 = w_core w.
Proof. intros H%leb_1. unfold do_call. cbn. unfold get_root. cbn. rewrite H, andb_false_r. cbn. eauto. Qed.
Lemma rootless_del_cas fuel w i o k f : (length (w_core w) <= 1)%nat ->
  exists w1, do_call fuel i (CDelCas k f) o w = (inl (RDelCas None), w1) /\ w_core w1 = w_core w.
Proof. intros H%leb_1. unfold do_call. cbn. unfold get_root. cbn. rewrite H, andb_false_r. cbn. eauto. Qed.
Lemma header_once fuel w i o md : w_core w <> [] ->
  exists w1, do_call fuel i (CHeader md) o w = (inl (RErr EHeaderAlreadyExists), w1) /\ w_core w1 = w_core w.
Proof. intros H. unfold do_call, view. destruct (w_core w) as [|x C] eqn:E; [done|]. cbn. eexists. by split. Qed.
Lemma header_first fuel w i md : w_core w = [] ->
  exists w1, do_call fuel i (CHeader md) [] w = (inl RDone, w1) /\ w_core w1 = [header_block md].
Proof. intros H. unfold do_call, view. rewrite H. cbn. eexists. by split. Qed.

(** *** C30 *)
Lemma read_failures fuel l i c o : history fuel 3 l -> usable l i -> reads_only c -> call_ok c ->
  let w := world_after fuel l in
  exists r0 r w1,
    fst (do_call fuel i c [] w) = inl r0 /\
    do_call fuel i c o w = (inl r, w1) /\ w_core w1 = w_core w /\
    (r = r0 \/ has_fault o /\ ((exists e, r = RErr e /\ Exists (reports e) o) \/
       exists es its b, r0 = RItems (map IOk es) false /\ r = RItems its b /\ gappy (fun _ => True) o its es b)) /\
    forall c2, call_ok c2 -> exists r2 w2 w3, do_call fuel i c2 [] w1 = (inl r2, w2) /\
      do_call fuel i c2 [] w = (inl r2, w3) /\ w_core w2 = w_core w3.
Proof.
  intros H Hi Hro Hc. reach H. cbn zeta. set (w := world_after fuel l) in *.
  destruct (call_clean _ _ _ _ _ _ i c HI Hi Hfit Hc) as (w0 & D0 & T0 & F0). rewrite D0. cbn [fst].
  pose proof Hfit as [Hf1 Hf2].
  destruct (do_call_spec _ _ _ _ fuel i c o HI Hi) as (r & w1 & D1 & Hout);
    [unfold chain_small; unfold with_header in *; lia|unfold with_header in *; lia|done|].
  assert (snd (spec_call c (Store N m)) = Store N m) as Es by (destruct c; try done; cbn; by destruct (N <=? 1)%nat).
  assert (forall g, took g c w w1 m t -> w_core w1 = w_core w /\ WInv g w1 m t) as Htook.
  { intros g (t1 & He & HI1 & _). rewrite HN, Es in HI1. cbn [s_entries] in HI1. destruct c; try done; by destruct He as [-> ->]. }
  assert (w_core w1 = w_core w /\ WInv (fun j => j = i) w1 m t) as [Ec HI1].
  { destruct Hout as [[_ Ht]|(_ & _ & _ & [Ht|(_ & Hx & HI1)])].
    - destruct (Htook _ Ht) as [? HI1]. split; [done|]. eapply WInv_weaken; [|exact HI1]. by intros j ->.
    - destruct (Htook _ Ht) as [? HI1]. split; [done|]. eapply WInv_weaken; [|exact HI1]. by intros j ->.
    - split; [by apply Hx|]. eapply WInv_weaken; [|exact HI1]. intros j ->. split; [done|]. right. intros [Hs _]. by destruct c. }
  eexists _, r, w1. split; [done|]. split; [done|]. split; [done|]. split.
  - destruct Hout as [[-> _]|(Hflt & [He|(conf & its & b & -> & -> & Hg)] & _)]; [by left|right; split; [done|by left]|].
    destruct (decide (N <= 1)%nat) as [HN1|HN1].
    + exfalso. destruct (rootless_traverse fuel w i o conf) as (w1' & D1' & _); [lia|]. by rewrite D1' in D1.
    + right. split; [done|]. right. exists (range conf m), its, b. split_and!; [|done|by eapply gappy_K].
      cbn [spec_call s_blocks s_entries fst]. rewrite HN. destruct (Nat.leb_spec N 1); [lia|done].
  - intros c2 Hc2. assert (fits w1 3 fuel) as F1 by (destruct Hfit; split; rewrite Ec; done).
    destruct (call_clean _ _ _ _ _ _ i c2 HI1 eq_refl F1 Hc2) as (w2 & D2 & (t2 & E2' & _) & _).
    destruct (call_clean _ _ _ _ _ _ i c2 HI Hi Hfit Hc2) as (w3 & D3 & (t3 & E3 & _) & _).
    eexists _, w2, w3. split; [exact D2|]. rewrite Ec. split; [exact D3|]. rewrite Ec in E2'.
    by destruct (effect_det _ _ _ _ _ _ _ _ (wi_rep _ _ _ _ HI) E2' E3).
Qed.

(** *** C23 *)
Lemma write_survives fuel l i c o : history fuel 3 l -> usable l i -> call_ok c ->
  let w := world_after fuel l in
  exists r0 w0 r w1, do_call fuel i c [] w = (inl r0, w0) /\ do_call fuel i c o w = (inl r, w1) /\
    ((r = r0 /\ w_core w1 = w_core w0 /\ (w_core w1 = w_core w -> answers_as fuel i w1 w)) \/
     (((exists e, r = RErr e /\ Exists (reports e) o) \/ reads_only c) /\
      (append_fault o \/ w_core w1 = w_core w) /\
      (w_core w1 = w_core w \/ w_core w1 = headed (w_core w) \/ w_core w1 = w_core w0) /\
      (w_core w1 = w_core w -> ~ (spoils c o /\ stored_one r0) -> answers_as fuel i w1 w))).
Proof.
  intros H Hi Hc. reach H. cbn zeta. set (w := world_after fuel l) in *.
  destruct (call_clean _ _ _ _ _ _ i c HI Hi Hfit Hc) as (w0 & D0 & (t0 & T0 & _) & F0).
  pose proof Hfit as [Hf1 Hf2].
  destruct (do_call_spec _ _ _ _ fuel i c o HI Hi) as (r & w1 & D1 & Hout);
    [unfold chain_small; unfold with_header in *; lia|unfold with_header in *; lia|done|].
  assert (forall m1 t1, WInv (fun j => j = i) w1 m1 t1 -> w_core w1 = w_core w -> answers_as fuel i w1 w) as Hans.
  { intros m1 t1 HI1 Ec c2 Hc2. pose proof (wi_rep _ _ _ _ HI1) as Hr1. rewrite Ec in Hr1.
    destruct (rep_det _ _ _ _ _ Hr1 (wi_rep _ _ _ _ HI)) as [-> ->].
    assert (fits w1 3 fuel) as F1 by (destruct Hfit; split; rewrite Ec; done).
    destruct (call_clean _ _ _ _ _ _ i c2 HI1 eq_refl F1 Hc2) as (w2 & D2 & (t2 & E2' & _) & _).
    destruct (call_clean _ _ _ _ _ _ i c2 HI Hi Hfit Hc2) as (w3 & D3 & (t3 & E3 & _) & _).
    eexists _, w2, w3. split; [exact D2|]. rewrite Ec. split; [exact D3|]. rewrite Ec in E2'.
    by destruct (effect_det _ _ _ _ _ _ _ _ (wi_rep _ _ _ _ HI) E2' E3). }
  assert (forall g : nat -> Prop, g i -> took g c w w1 m t -> w_core w1 = w_core w0 /\ (w_core w1 = w_core w -> answers_as fuel i w1 w)) as Htook.
  { intros g Hg (t1 & T1 & HI1 & _). split; [by destruct (effect_det _ _ _ _ _ _ _ _ (wi_rep _ _ _ _ HI) T1 T0)|].
    eapply Hans, WInv_weaken; [|exact HI1]. by intros j ->. }
  eexists _, w0, r, w1. split; [exact D0|]. split; [exact D1|].
  destruct Hout as [[-> T1]|(Hflt & Hfr & Hap & Hout)].
  { left. split; [by rewrite HN|]. by eapply Htook. }
  right. split_and!; [|done| |].
  - destruct Hfr as [He|(conf & its & b & -> & _)]; [by left|by right].
  - destruct Hout as [T1|([?|?] & _)]; [right; right; by eapply Htook|by left|right; by left].
  - intros Ec Hs. destruct Hout as [T1|(_ & _ & HI1)]; [by eapply Htook|].
    eapply Hans; [|done]. eapply WInv_weaken; [|exact HI1]. intros j ->. split; [done|]. right. exact Hs.
Qed.

Lemma put_survives fuel l i c o k v : history fuel 3 l -> usable l i -> call_ok c -> c = CPut k v \/ (exists f, c = CPutCas k v f) -> ~ append_fault o ->
  let w := world_after fuel l in
  exists r0 w0 r w1, do_call fuel i c [] w = (inl r0, w0) /\ do_call fuel i c o w = (inl r, w1) /\
    ((r = r0 /\ w_core w1 = w_core w0) \/
     ((exists e, r = RErr e /\ Exists (reports e) o) /\ w_core w1 = w_core w /\ answers_as fuel i w1 w)).
Proof.
  intros H Hi Hc Hcc Ho. destruct (write_survives fuel l i c o H Hi Hc) as (r0 & w0 & r & w1 & D0 & D1 & Hx). cbn zeta.
  exists r0, w0, r, w1. split; [done|]. split; [done|]. destruct Hx as [(? & ? & _)|(He & [?|Ec] & _ & Hs)]; [by left|done|right].
  split_and!; [|done|].
  - destruct He as [He|He]; [done|]. by destruct Hcc as [-> |[f ->]].
  - apply Hs; [done|]. intros [Hsp _]. by destruct Hcc as [-> |[f ->]].
Qed.

(** A write with nothing to store. *)
Lemma idle_write_survives fuel l i c o r0 : history fuel 3 l -> usable l i -> call_ok c -> ~ reads_only c ->
  let w := world_after fuel l in
  (1 <= length (w_core w))%nat -> fst (do_call fuel i c [] w) = inl r0 -> ~ stored_one r0 ->
  exists r w1, do_call fuel i c o w = (inl r, w1) /\ w_core w1 = w_core w /\
    (r = r0 \/ exists e, r = RErr e /\ Exists (reports e) o) /\ answers_as fuel i w1 w.
Proof.
  intros H Hi Hc Hnr. cbn zeta. intros Hl E0 Hns.
  destruct (write_survives fuel l i c o H Hi Hc) as (r0' & w0 & r & w1 & D0 & D1 & Hx). rewrite D0 in E0. cbn in E0. injection E0 as ->.
  assert (w_core w0 = w_core (world_after fuel l)) as E0.
  { assert (history fuel 1 l) as H1 by (destruct H as (? & ? & ? & ?); split_and!; try done; lia).
    destruct (append_nothing fuel l i c H1 Hi Hc) as (r' & w' & D' & _ & Hrf & _). rewrite D0 in D'. injection D' as <- <-.
    assert (refused r0) as Hr.
    { reach H1. destruct (call_clean _ _ _ _ _ _ i c HI Hi Hfit Hc) as (w0' & D0' & _). rewrite D0 in D0'. injection D0' as -> _.
      revert Hns Hnr. unfold spec_call, spec_put, spec_del. cbn [s_blocks s_entries].
      destruct c as [k|k v|k v f|k|k f| |md|conf]; cbn; try tauto.
      - by destruct (f _ _).
      - by destruct (lookup_key k m).
      - destruct (lookup_key k m) as [e|]; [|done]. by destruct (f e).
      - destruct (Nat.eqb_spec (length (w_core (world_after fuel l))) 0); [lia|done]. }
    destruct (Hrf Hr) as [?|[E _]]; [done|]. rewrite E in Hl. cbn in Hl. lia. }
  exists r, w1. split; [done|].
  assert (w_core w1 = w_core (world_after fuel l)) as E1.
  { destruct Hx as [(_ & E & _)|(_ & _ & [E|[E|E]] & _)]; [by rewrite E|done|by rewrite E, headed_some|by rewrite E]. }
  split_and!; [done| |].
  - destruct Hx as [(E & _ & _)|([E|E] & _)]; [by left|by right|done].
  - destruct Hx as [(_ & _ & E)|(_ & _ & _ & E)]; apply E; [done|done|]. by intros [_ ?].
Qed.

(** *** C31 *)
Inductive effects : list call -> list bytes -> list kvdata -> option tree -> list bytes -> option tree -> Prop :=
| effs_nil C m t : effects [] C m t C t
| effs_cons c cs C m t C1 t1 C2 t2 : effect c C m t C1 t1 ->
    rep C1 (s_entries (snd (spec_call c (Store (length C) m)))) t1 ->
    effects cs C1 (s_entries (snd (spec_call c (Store (length C) m)))) t1 C2 t2 ->
    effects (c :: cs) C m t C2 t2.
Lemma effects_det cs C m t C1 t1 : effects cs C m t C1 t1 -> forall C2 t2, rep C m t -> effects cs C m t C2 t2 -> C1 = C2.
Proof.
  induction 1 as [C m t|c cs C m t C1 t1 C2 t2 He Hr Hs IH]; intros C' t' Hrep H'; inversion H' as [|? ? ? ? ? ? ? ? ? He' Hr' Hs']; subst; [done|].
  destruct (effect_det _ _ _ _ _ _ _ _ Hrep He He') as [-> ->]. by eapply IH.
Qed.
Lemma play_effects fuel l : forall w m t, WInv (fun _ => True) w m t -> Forall event_ok l -> Forall clean l -> fits w (length l) fuel ->
  exists t', effects (calls_of l) (w_core w) m t (w_core (snd (play fuel l w))) t'.
Proof.
  induction l as [|e l IH]; intros w m t HI Hev Hc Hf; [exists t; constructor|].
  apply Forall_cons in Hev as [He Hev]. apply Forall_cons in Hc as [Hce Hc]. destruct e as [i c o|i|i c o k|xs sched|i c o xs sched].
  - cbn [length] in Hf. pose proof Hf as [Hf1 Hf2].
    destruct (do_call_spec _ w m t fuel i c o HI I) as (r & w1 & D1 & Hout);
      [unfold chain_small; unfold with_header in *; lia|unfold with_header in *; lia|done|].
    destruct Hout as [[Hr (t1 & Heff & HI1 & Hl1)]|[Hx _]]; [|done].
    cbn [calls_of play]. rewrite D1. destruct (IH w1 _ t1 HI1 Hev Hc) as [t' Ht'].
    { pose proof (spec_call_grow c (Store (length (w_core w)) m)) as G. cbn [s_blocks] in G. split; rewrite Hl1; lia. }
    exists t'. destruct (play fuel l w1) as [rs w2]. cbn [snd] in *. econstructor; [exact Heff|apply HI1|exact Ht'].
  - cbn [calls_of play]. destruct (IH (reopen i w) m t) as [t' Ht']; [|done|done| |by exists t'].
    + eapply WInv_weaken; [|exact (reopen_inv _ i _ _ _ HI)]. intros j _. by left.
    + destruct Hf as [H1 H2]. cbn [length] in *. split; cbn [reopen w_core]; lia.
  - destruct Hf as [H1 H2]. cbn [length] in H1, H2. destruct (drop_spec _ w m t fuel i c o k HI I) as (b1 & _ & Hro & t1 & _); [split; lia|done|].
    destruct (Hro Hce) as [-> HC]. cbn [calls_of play]. 
    pose proof (drop_task fuel (i, c, o) k w) as [D1 D2]. cbn zeta in *.
    destruct (tasks_inv _ w m t fuel [(i, c, o)] (repeat 0 k) HI) as [T1 T2]; [unfold with_header in *; lia|by constructor; [|constructor]|]. cbn zeta in *.
    rewrite <-HC. apply IH; [|done|done|split; rewrite HC; lia]. eapply WInv_same; [exact D1|exact D2|exact T2].
  - destruct Hf as [H1 H2]. cbn [length] in H1, H2. cbn [calls_of play].
    destruct (tasks_inv _ w m t fuel xs sched HI) as [T1 T2]; [unfold with_header in *; lia| |].
    { eapply Forall_impl; [exact He|]. intros x [? ?]. done. }
    cbn zeta in *. rewrite <-T1. apply IH; [done|done|done|split; rewrite T1; lia].
  - cbn [length] in Hf. pose proof Hf as [Hf1 Hf2]. destruct He as (Hp & He & Hxs).
    destruct (do_busy_spec _ w m t fuel i c o xs sched HI I) as (r & w1 & D1 & Hout);
      [unfold chain_small; unfold with_header in *; lia|unfold with_header in *; lia|done|left; destruct c; try done; by eexists| |].
    { eapply Forall_impl; [exact Hxs|]. intros x [? ?]. done. }
    destruct Hout as [[Hr (t1 & Heff & HI1 & Hl1)]|[Hx _]]; [|done].
    cbn [calls_of play]. rewrite D1. destruct (IH w1 _ t1 HI1 Hev Hc) as [t' Ht'].
    { pose proof (spec_call_grow c (Store (length (w_core w)) m)) as G. cbn [s_blocks] in G. split; rewrite Hl1; lia. }
    exists t'. destruct (play fuel l w1) as [rs w2]. cbn [snd] in *. econstructor; [exact Heff|apply HI1|exact Ht'].
Qed.
Lemma deterministic_bytes fuel fuel' l l' : Forall event_ok l -> Forall event_ok l' -> Forall clean l -> Forall clean l' ->
  (length l < fuel)%nat -> (length l' < fuel')%nat -> (N.of_nat (length l) + 1 < 2 ^ 50)%N -> (N.of_nat (length l') + 1 < 2 ^ 50)%N ->
  calls_of l = calls_of l' -> w_core (world_after fuel l) = w_core (world_after fuel' l').
Proof.
  intros He He' Hc Hc' Hf Hf' Hn Hn' E.
  assert (WInv (fun _ => True) (new_world []) [] None) as HI.
  { apply new_world_inv; [apply valid_nil|apply rep_nil]. }
  destruct (play_effects fuel l _ _ _ HI He Hc) as [t1 H1]; [split; cbn; lia|].
  destruct (play_effects fuel' l' _ _ _ HI He' Hc') as [t2 H2]; [split; cbn; lia|].
  rewrite <-E in H2. eapply effects_det; [exact H1| |exact H2]. apply rep_nil.
Qed.

(** *** C33 *)
Lemma seq_locates fuel l i k q v : history fuel 1 l -> usable l i ->
  fst (do_call fuel i (CGet k) [] (world_after fuel l)) = inl (RGet (Some (q, v))) ->
  block_holds (w_core (world_after fuel l)) q k v.
Proof.
  intros H Hi. reach H. destruct (call_clean _ _ _ _ _ _ i (CGet k) HI Hi Hfit I) as (w1 & D1 & _ & _). rewrite D1.
  cbn [fst spec_call s_entries]. destruct (lookup_key k m) as [[q' k' v']|] eqn:Ek; [|done]. cbn. intros [= -> ->].
  apply lookup_key_spec in Ek as [Ek <-]. by apply (rep_blocks _ _ _ _ (wi_rep _ _ _ _ HI)) in Ek as [? _].
Qed.

(** *** C34 *)
Lemma first_put fuel i k v : (2 <= fuel)%nat -> call_ok (CPut k v) ->
  exists w raw, do_call fuel i (CPut k v) [] (new_world []) = (inl (RPut None 1), w) /\ w_core w = [header_block None; raw] /\
    block_holds (w_core w) 1 k v.
Proof.
  intros Hf Hc. assert (history fuel 1 []) as H by (split_and!; [done|constructor|cbn; lia|cbn; lia]).
  reach H. assert (usable [] i) as Hi by (by intros []).
  change (world_after fuel []) with (new_world []) in *. inversion E2; subst. destruct t as [T|]; [destruct (wi_rep _ _ _ _ HI) as [Hx _]; cbn in Hx; lia|].
  destruct (call_clean _ _ _ _ _ _ i (CPut k v) HI Hi Hfit Hc) as (w1 & D1 & (t1 & (T' & -> & HA) & HI1 & Hl1) & F1).
  rewrite D1. exists w1.
  assert (block_holds (w_core w1) 1 k v) as Hb.
  { apply (rep_blocks _ _ _ (KV 1 k v) (wi_rep _ _ _ _ HI1)). cbn. by left. }
  destruct HA as [_ [HA _]]. eexists. split_and!; [done|exact HA|done].
Qed.

(** *** C39 *)
Lemma emptied fuel l i l2 : history fuel (length l2) l -> Forall event_ok l2 -> Forall clean l2 -> trusted (bad_end l nobody) l2 ->
  usable l i -> (0 < length l2)%nat ->
  (forall k, fst (do_call fuel i (CGet k) [] (world_after fuel l)) = inl (RGet None)) ->
  let w := world_after fuel l in
  fst (play fuel l2 w) = map inl (fst (spec_run (calls_of l2) (Store (length (w_core w)) []))).
Proof.
  intros H Hev Hc Ht Hi Hl Hg. reach H. cbn zeta.
  assert (m = []) as ->.
  { destruct m as [|e m]; [done|]. destruct l2 as [|? l2]; [cbn in Hl; lia|].
    destruct (call_clean _ _ _ _ _ _ i (CGet (kv_key e)) HI Hi Hfit I) as (w1 & D1 & _ & _).
    specialize (Hg (kv_key e)). rewrite D1 in Hg. cbn in Hg. rewrite bool_decide_eq_true_2 in Hg by done. done. }
  destruct (play_spec l2 fuel (world_after fuel l) (bad_end l nobody) [] t) as (rs' & w' & b & t' & P1 & P2 & _); [exact HI|done|done|done|].
  rewrite P1. destruct (explains_clean _ _ _ _ P2 Hc) as [-> _]. done.
Qed.

(** *** C11 *)
Lemma explains_replies l a rs b : explains l a rs b -> Forall (fun r => exists x, r = inl x) rs.
Proof. induction 1; [constructor|done| | |done|done| |]; (constructor; [by eexists|done]). Qed.
Lemma spec_no_panic c a its : fst (spec_call c a) <> RItems its true.
Proof.
  destruct a as [n m], c as [k|k v|k v f|k|k f| |md|conf]; unfold spec_call, spec_put, spec_del; cbn [s_blocks s_entries]; try done.
  - by destruct (f _ _).
  - by destruct (lookup_key k m).
  - destruct (lookup_key k m); [|done]. by destruct (f _).
  - by destruct (n =? 0)%nat.
  - by destruct (n <=? 1)%nat.
Qed.
Lemma no_panic fuel l : history fuel 0 l ->
  Forall (fun r => exists x, r = inl x) (fst (play fuel l (new_world []))) /\
  (Forall clean l -> forall its, inl (RItems its true) ∉ fst (play fuel l (new_world []))).
Proof.
  intros H. destruct (faulty_histories _ _ H) as (rs & b & E1 & E2 & _). rewrite E1. cbn. split; [by eapply explains_replies|].
  intros Hc its. destruct (explains_clean _ _ _ _ E2 Hc) as [-> _]. intros (r & Hr & Hin)%elem_of_list_fmap. injection Hr as <-.
  clear -Hin. revert Hin. generalize empty_store. induction (calls_of l) as [|c cs IH]; intros a; [by intros ?%elem_of_nil|].
  cbn [spec_run]. destruct (spec_call c a) as [r a1] eqn:E. specialize (IH a1). destruct (spec_run cs a1) as [rs b]. cbn [fst] in *.
  intros [Hr|Hin]%elem_of_cons; [|by apply IH]. apply (spec_no_panic c a its). by rewrite E.
Qed.

(** *** C21 *)
Lemma every_version fuel l n : history fuel 0 l -> (n <= length (w_core (world_after fuel l)))%nat ->
  (n = 1 /\ behaves fuel (take n (w_core (world_after fuel l))) (Store 1 [])) \/
  exists l1 l2 rs b, l = l1 ++ l2 /\ play fuel l1 (new_world []) = (rs, world_after fuel l1) /\ explains l1 empty_store rs b /\
    s_blocks b = n /\ behaves fuel (take n (w_core (world_after fuel l))) b.
Proof.
  intros H Hn. destruct (all_lengths _ _ _ H Hn) as [->|(l1 & l2 & -> & El)].
  - left. split; [done|]. by apply header_only_behaves.
  - right. destruct (versions_readable _ _ _ H) as (rs & b & E1 & E2 & Eb & E3).
    rewrite El in Eb. exists l1, l2, rs, b. split_and!; [done|done|done|done|by rewrite <-Eb].
Qed.

(** *** C24 *)
Lemma handles_agree fuel l i j c : history fuel 1 l -> usable l i -> usable l j -> call_ok c ->
  exists r w1 w2, do_call fuel i c [] (world_after fuel l) = (inl r, w1) /\
    do_call fuel j c [] (world_after fuel l) = (inl r, w2) /\ w_core w1 = w_core w2.
Proof.
  intros H Hi Hj Hc. reach H.
  destruct (call_clean _ _ _ _ _ _ i c HI Hi Hfit Hc) as (w1 & D1 & T1 & _).
  destruct (call_clean _ _ _ _ _ _ j c HI Hj Hfit Hc) as (w2 & D2 & T2 & _).
  eexists _, w1, w2. split_and!; [exact D1|exact D2|]. eapply took_det; [apply HI|exact T1|exact T2].
Qed.

Lemma rootless fuel w i o : (length (w_core w) <= 1)%nat ->
  (forall k, exists w1, do_call fuel i (CGet k) o w = (inl (RGet None), w1) /\ w_core w1 = w_core w) /\
  (forall k, exists w1, do_call fuel i (CDel k) o w = (inl (RDel None), w1) /\ w_core w1 = w_core w) /\
  (forall k f, exists w1, do_call fuel i (CDelCas k f) o w = (inl (RDelCas None), w1) /\ w_core w1 = w_core w) /\
  (forall conf, exists w1, do_call fuel i (CTraverse conf) o w = (inl (RErr ENoRoot), w1) /\ w_core w1 = w_core w).
Proof.
  intros H. split_and!; intros; [by apply rootless_get|by apply rootless_del|by apply rootless_del_cas|by apply rootless_traverse].
Qed.

(** *** C44 *)
Lemma given_up fuel l i c o k : history fuel 2 l -> usable l i -> call_ok c ->
  let w1 := world_after fuel (l ++ [EvDrop i c o k]) in
  exists rs b b1, play fuel l (new_world []) = (rs, world_after fuel l) /\ explains l empty_store rs b /\
    after_failure c b b1 /\ (reads_only c -> b1 = b /\ w_core w1 = w_core (world_after fuel l)) /\ behaves fuel (w_core w1) b1 /\
    (forall j c2, usable l j -> j <> i \/ reads_only c -> call_ok c2 -> fst (do_call fuel j c2 [] w1) = inl (fst (spec_call c2 b1))) /\
    forall j c2, usable l j \/ j = i -> call_ok c2 -> fst (do_call fuel j c2 [] (reopen i w1)) = inl (fst (spec_call c2 b1)).
Proof.
  intros H Hi Hc. cbn zeta. reach H. destruct Hfit as [Hf1 Hf2].
  assert (world_after fuel (l ++ [EvDrop i c o k]) = commit_view (world_after fuel l) i (snd (run_upto k (api fuel c) (view (world_after fuel l) i o)))) as ->.
  { unfold world_after at 1. by rewrite play_app, E1. }
  set (w1 := commit_view _ _ _).
  destruct (drop_spec _ _ _ _ fuel i c o k HI Hi) as (b1 & Haf & Hro & t1 & Hl1 & HI1); [split; lia|done|]. cbn zeta in *. fold w1 in Hro, Hl1, HI1.
  rewrite HN in *.
  assert (fits w1 1 fuel) as Hfit1.
  { pose proof (spec_call_grow c (Store N m)) as G. cbn [s_blocks] in G. unfold fits. rewrite Hl1.
    destruct Haf as [-> |[-> | ->]]; cbn [s_blocks]; unfold with_header in *; split; lia. }
  assert (b1 = Store (length (w_core w1)) (s_entries b1)) as Eb by (destruct b1; cbn in *; by rewrite Hl1).
  assert (forall g w2 j c2, w_core w2 = w_core w1 -> WInv g w2 (s_entries b1) t1 -> g j -> call_ok c2 ->
    fst (do_call fuel j c2 [] w2) = inl (fst (spec_call c2 b1))) as Hcall.
  { intros g w2 j c2 Ew HI2 Hj Hc2. destruct (call_clean _ _ _ _ fuel 0 j c2 HI2 Hj) as (w3 & D & _ & _); [unfold fits; by rewrite Ew|done|].
    rewrite D. cbn [fst]. by rewrite Eb, Ew. }
  exists rs, (Store N m), b1. split_and!; [done|done|done|done| | |].
  - rewrite Eb. eapply behaves_rep; apply HI1.
  - intros j c2 Hj Hd Hc2. eapply Hcall; [done|exact HI1|done|done].
  - intros j c2 Hj Hc2. eapply (Hcall _ (reopen i w1)); [done|exact (reopen_inv _ i _ _ _ HI1)| |done].
    destruct (decide (j = i)); [by right|left]. destruct Hj; [|done]. split; [done|by left].
Qed.

Lemma reads_given_up fuel l xs sched : history fuel 2 l ->
  Forall (fun x => usable l (fst (fst x)) /\ reads_only (snd (fst x)) /\ call_ok (snd (fst x))) xs ->
  let w1 := world_after fuel (l ++ [EvReads xs sched]) in
  w_core w1 = w_core (world_after fuel l) /\ forall j, usable l j -> answers_as fuel j w1 (world_after fuel l).
Proof.
  intros H Hxs. cbn zeta. reach H. destruct Hfit as [Hf1 Hf2].
  assert (world_after fuel (l ++ [EvReads xs sched]) = snd (tasks_run sched (map (task fuel) xs) (world_after fuel l))) as ->.
  { unfold world_after at 1. by rewrite play_app, E1. }
  destruct (tasks_inv _ _ _ _ fuel xs sched HI) as [T1 T2]; [unfold with_header in *; lia| |].
  { eapply Forall_impl; [exact Hxs|]. by intros x (? & ? & ?). }
  cbn zeta in *. split; [done|]. intros j Hj c2 Hc2.
  destruct (call_clean _ _ _ _ fuel 0 j c2 HI Hj) as (w2 & D2 & (t2 & F2 & _) & _); [split; lia|done|].
  destruct (call_clean _ _ _ _ fuel 0 j c2 T2 Hj) as (w3 & D3 & (t3 & F3 & _) & _); [split; rewrite T1; lia|done|].
  rewrite T1 in D3, F3. exists (fst (spec_call c2 (Store (length (w_core (world_after fuel l))) m))), w3, w2. split_and!; [done|done|].
  destruct (effect_det _ _ _ _ _ _ _ _ (wi_rep _ _ _ _ HI) F3 F2) as [-> _]. done.
Qed.

(** *** C46 *)
Lemma busy_put fuel l i c xs sched : history fuel 2 l -> usable l i -> puts c -> call_ok c ->
  Forall (fun x => usable l (fst (fst x)) /\ reads_only (snd (fst x))) xs ->
  exists r w1 w2, do_busy fuel i c [] xs sched (world_after fuel l) = (inl r, w1) /\
    do_call fuel i c [] (world_after fuel l) = (inl r, w2) /\ w_core w1 = w_core w2 /\
    forall j, usable l j -> answers_as fuel j w1 w2.
Proof.
  intros H Hi Hp Hc Hxs. reach H. destruct Hfit as [Hf1 Hf2].
  destruct (do_busy_spec _ _ _ _ fuel i c [] xs sched HI Hi) as (r & w1 & D1 & Hout);
    [unfold chain_small; unfold with_header in *; lia|unfold with_header in *; lia|done|left; destruct c; try done; by eexists| |].
  { eapply Forall_impl; [exact Hxs|]. intros x [? ?]. done. }
  destruct Hout as [[Hr (t1 & F1 & HI1 & L1)]|[Hx _]]; [|by apply no_fault in Hx].
  destruct (call_clean _ _ _ _ fuel 1 i c HI Hi) as (w2 & D2 & (t2 & F2 & HI2 & L2) & Hfit2); [split; lia|done|].
  exists r, w1, w2. split; [done|]. split; [by rewrite D2, Hr|].
  destruct (effect_det _ _ _ _ _ _ _ _ (wi_rep _ _ _ _ HI) F1 F2) as [E ->]. split; [done|]. intros j Hj c2 Hc2.
  destruct (call_clean _ _ _ _ fuel 0 j c2 HI2 Hj) as (w4 & D4 & (t4 & F4 & _) & _); [done|done|].
  destruct (call_clean _ _ _ _ fuel 0 j c2 HI1 Hj) as (w3 & D3 & (t3 & F3 & _) & _); [unfold fits; by rewrite E|done|].
  rewrite E in D3, F3. eexists _, w3, w4. split_and!; [exact D3|exact D4|].
  by destruct (effect_det _ _ _ _ _ _ _ _ (wi_rep _ _ _ _ HI2) F3 F4) as [-> _].
Qed.
