(** Programs that keep the rules of [Cffi.v] are safe and leave nothing behind. *)
From Coq.Strings Require Import Byte String.
From Coq Require Import Lia.
From stdpp Require Import prelude gmap.
From Verif Require Import Bytes Codec Model Order Wp Store Tree Iter Read Zip Pure Seq Mut MutDel MutTop Commit Spec OrderProofs Client Abs Api Call Det Hist Main Threads Conc Ffi Cffi Demo.

(** ** Memory *)
Lemma alive_alloc x m b : alive (m ++ [Some x]) b = if (b =? length m)%nat then Some x else alive m b.
Proof.
  unfold alive. destruct (Nat.eqb_spec b (length m)) as [->|Hn].
  - rewrite lookup_app_r by lia. by rewrite Nat.sub_diag.
  - destruct (decide (b < length m)%nat); [by rewrite lookup_app_l|].
    rewrite (lookup_ge_None_2 (m ++ [Some x])) by (rewrite app_length; cbn; lia). by rewrite (lookup_ge_None_2 m) by lia.
Qed.
Lemma alive_lt m a x : alive m a = Some x -> (a < length m)%nat.
Proof. unfold alive. destruct (m !! a) eqn:E; [|done]. intros _. by eapply lookup_lt_Some. Qed.
Lemma alive_free m a b : alive (free a m) b = if (b =? a)%nat then None else alive m b.
Proof.
  unfold alive, free. destruct (Nat.eqb_spec b a) as [->|Hn]; [|by rewrite list_lookup_insert_ne].
  destruct (decide (a < length m)%nat); [by rewrite list_lookup_insert|]. by rewrite lookup_ge_None_2 by (rewrite insert_length; lia).
Qed.
Lemma is_obj_true m p x : is_obj m p x = true -> exists a, p = PAt a /\ alive m a = Some x.
Proof. unfold is_obj. destruct p as [| |a]; cbn; [done|done|]. intros H. exists a. destruct (alive m a) as [[]|], x; done. Qed.
Lemma is_obj_alive m a x : alive m a = Some x -> (forall b, x <> OBuffer b) -> is_obj m (PAt a) x = true.
Proof. unfold is_obj. cbn. intros -> H. destruct x; try done. by destruct (H b). Qed.
Lemma elem_without a b l : b ∈ without a l <-> b ∈ l /\ b <> a.
Proof.
  unfold without. rewrite !elem_of_list_In, filter_In. destruct (Nat.eqb_spec b a) as [->|]; cbn; intuition congruence.
Qed.

(** ** The book is right *)
Record InvB (b : book) (st : cstate) : Prop := {
  ib_runtimes : forall a, a ∈ b_runtimes b <-> alive (cs_mem st) a = Some ORuntime;
  ib_bees : forall a, a ∈ b_bees b <-> alive (cs_mem st) a = Some OBee;
  ib_strings : forall a, a ∈ b_strings b <-> alive (cs_mem st) a = Some OString;
  ib_buffers : forall a n, (a, n) ∈ b_buffers b <-> exists x, alive (cs_mem st) a = Some (OBuffer x) /\ length x = n;
  ib_count : b_count b = length (cs_tasks st);
  ib_tasks : forall j t, cs_tasks st !! j = Some t -> gt_run t = true ->
    gt_rt t ∈ b_runtimes b /\ gt_bee t ∈ b_bees b /\ (j, gt_rt t, gt_bee t) ∈ b_gets b }.

Lemma invb_start fuel base l : InvB empty_book (cstart fuel base l).
Proof.
  split; cbn; try done; intros a; try (intros n); split; try (by intros ?%elem_of_nil); unfold alive; cbn; try done.
  by intros (x & ? & _).
Qed.

(** A rule kept is a step that is defined. *)
Lemma rules_defined fuel b st k : InvB b st -> allowed b k -> exists o st', cstep fuel k st = Some (o, st').
Proof.
  intros [Hr Hb Hs Hu Hc Ht] Ha. destruct k as [ok|p|p path ok|p|rt hb key o|p|p len|j]; cbn [allowed] in Ha; cbn [cstep].
  - destruct ok; cbn; eauto.
  - destruct Ha as (a & -> & Ha). apply Hr in Ha. rewrite (is_obj_alive _ _ _ Ha) by done. cbn [andb addr].
    assert (forallb (cancels_well (cs_mem st) a) (cs_tasks st) = true) as ->; [|eauto].
    apply forallb_forall. intros t (j & Hj)%elem_of_list_In%elem_of_list_lookup. unfold cancels_well.
    destruct (gt_run t) eqn:Er; [|done]. destruct (Ht j t Hj Er) as (_ & H2%Hb & _).
    rewrite (is_obj_alive _ _ _ H2) by done. by rewrite !orb_true_r.
  - destruct Ha as (a & -> & Ha). apply Hr in Ha. rewrite (is_obj_alive _ _ _ Ha) by done. destruct (path && ok); cbn; eauto.
  - destruct Ha as (a & -> & Ha & _). apply Hb in Ha. rewrite (is_obj_alive _ _ _ Ha) by done. eauto.
  - destruct Ha as (a & c & x & -> & H1%Hr & -> & H2%Hb & ->).
    rewrite (is_obj_alive _ _ _ H1), (is_obj_alive _ _ _ H2) by done. cbn. eauto.
  - destruct Ha as (a & -> & Ha). apply Hs in Ha. rewrite (is_obj_alive _ _ _ Ha) by done. eauto.
  - destruct Ha as [[-> ->]|(a & -> & Ha)]; [cbn; eauto|]. apply Hu in Ha as (x & Ha & <-). cbn [at_ptr]. rewrite Ha, Nat.eqb_refl. eauto.
  - destruct (cs_tasks st !! j) as [t|] eqn:Ej; [|eauto]. destruct (gt_run t) eqn:Er; [|eauto].
    destruct (Ht j t Ej Er) as (_ & H2%Hb & _). rewrite (is_obj_alive _ _ _ H2) by done.
    destruct (gt_prog t) as [cb|x|k|q k|bb k|q k|q e k|nd k|n k|n f k] eqn:Ep; try (destruct (step _ _); eauto).
    + destruct (hand_over _ _). cbn. eauto.
    + eauto.
Qed.

Record MemB (b : book) (m : memory) : Prop := {
  mb_runtimes : forall a, a ∈ b_runtimes b <-> alive m a = Some ORuntime;
  mb_bees : forall a, a ∈ b_bees b <-> alive m a = Some OBee;
  mb_strings : forall a, a ∈ b_strings b <-> alive m a = Some OString;
  mb_buffers : forall a n, (a, n) ∈ b_buffers b <-> exists x, alive m a = Some (OBuffer x) /\ length x = n }.
Lemma InvB_MemB b st : InvB b st -> MemB b (cs_mem st).
Proof. by intros []. Qed.

Lemma alive_end m : alive m (length m) = None.
Proof. unfold alive. by rewrite lookup_ge_None_2. Qed.

Ltac mem_alloc m := intros [Hr Hb Hs Hu]; split; cbn; intros a'; try intros n; rewrite ?elem_of_cons, ?Hr, ?Hb, ?Hs, ?Hu; setoid_rewrite alive_alloc;
  destruct (Nat.eqb_spec a' (length m)) as [->|Hne]; rewrite ?alive_end; naive_solver.
Lemma memb_runtime b m g c : MemB b m -> MemB (Book (length m :: b_runtimes b) (b_bees b) (b_strings b) (b_buffers b) g c) (m ++ [Some ORuntime]).
Proof. mem_alloc m. Qed.
Lemma memb_bee b m g c : MemB b m -> MemB (Book (b_runtimes b) (length m :: b_bees b) (b_strings b) (b_buffers b) g c) (m ++ [Some OBee]).
Proof. mem_alloc m. Qed.
Lemma memb_string b m g c : MemB b m -> MemB (Book (b_runtimes b) (b_bees b) (length m :: b_strings b) (b_buffers b) g c) (m ++ [Some OString]).
Proof. mem_alloc m. Qed.
Lemma memb_buffer b m g c x : MemB b m -> MemB (Book (b_runtimes b) (b_bees b) (b_strings b) ((length m, length x) :: b_buffers b) g c) (m ++ [Some (OBuffer x)]).
Proof. mem_alloc m. Qed.

Lemma elem_drop_buffer a c n (l : list (nat * nat)) : (c, n) ∈ List.filter (fun x => negb (fst x =? a)%nat) l <-> (c, n) ∈ l /\ c <> a.
Proof. rewrite !elem_of_list_In, filter_In. cbn. destruct (Nat.eqb_spec c a) as [->|]; cbn; intuition congruence. Qed.
Ltac mem_free a := intros [Hr Hb Hs Hu] Ha; split; cbn; intros a'; try intros n; rewrite ?elem_without, ?elem_drop_buffer, ?Hr, ?Hb, ?Hs, ?Hu; setoid_rewrite alive_free;
  destruct (Nat.eqb_spec a' a) as [->|Hne]; rewrite ?Ha; naive_solver.
Lemma memb_close_runtime b m a g c : MemB b m -> alive m a = Some ORuntime -> MemB (Book (without a (b_runtimes b)) (b_bees b) (b_strings b) (b_buffers b) g c) (free a m).
Proof. mem_free a. Qed.
Lemma memb_close_bee b m a g c : MemB b m -> alive m a = Some OBee -> MemB (Book (b_runtimes b) (without a (b_bees b)) (b_strings b) (b_buffers b) g c) (free a m).
Proof. mem_free a. Qed.
Lemma memb_free_string b m a g c : MemB b m -> alive m a = Some OString -> MemB (Book (b_runtimes b) (b_bees b) (without a (b_strings b)) (b_buffers b) g c) (free a m).
Proof. mem_free a. Qed.
Lemma memb_free_buffer b m a x g c : MemB b m -> alive m a = Some (OBuffer x) ->
  MemB (Book (b_runtimes b) (b_bees b) (b_strings b) (List.filter (fun x => negb (fst x =? a)%nat) (b_buffers b)) g c) (free a m).
Proof. mem_free a. Qed.
Lemma memb_same b m g c : MemB b m -> MemB (Book (b_runtimes b) (b_bees b) (b_strings b) (b_buffers b) g c) m.
Proof. by intros []. Qed.

Lemma build_InvB b st : MemB b (cs_mem st) -> b_count b = length (cs_tasks st) ->
  (forall j t, cs_tasks st !! j = Some t -> gt_run t = true ->
    gt_rt t ∈ b_runtimes b /\ gt_bee t ∈ b_bees b /\ (j, gt_rt t, gt_bee t) ∈ b_gets b) -> InvB b st.
Proof. intros [] ? ?. by split. Qed.

Lemma elem_drop_get (P : nat * nat * nat -> bool) g (l : list (nat * nat * nat)) : g ∈ List.filter P l <-> g ∈ l /\ P g = true.
Proof. by rewrite !elem_of_list_In, filter_In. Qed.

Lemma rules_inv fuel b st k o st' : InvB b st -> allowed b k -> cstep fuel k st = Some (o, st') -> InvB (note b (k, o)) st'.
Proof.
  intros Hi Ha Hk. pose proof (InvB_MemB _ _ Hi) as Hm. pose proof Hi as [Hr Hb Hs Hu Hc Ht].
  destruct k as [ok|p|p path ok|p|rt hb key of|p|p len|j]; cbn [allowed] in Ha; cbn [cstep] in Hk.
  - destruct ok; cbn in Hk; injection Hk as <- <-; [|done]. cbn [note]. apply build_InvB; cbn; [by apply memb_runtime|done|].
    intros j t Hj Hrun. destruct (Ht j t Hj Hrun) as (? & ? & ?). by rewrite elem_of_cons; auto.
  - destruct Ha as (a & -> & Ha). apply Hr in Ha. rewrite (is_obj_alive _ _ _ Ha) in Hk by done. cbn [andb addr] in Hk.
    destruct (forallb _ _); [|done]. injection Hk as <- <-. cbn [note]. apply build_InvB; cbn; [by apply memb_close_runtime|by rewrite map_length|].
    intros j t Hj Hrun. rewrite list_lookup_fmap in Hj. destruct (cs_tasks st !! j) as [t0|] eqn:Ej; [|done]. cbn in Hj. injection Hj as <-.
    unfold cancel in *. destruct (Nat.eqb_spec (gt_rt t0) a) as [|Hne]; [done|]. destruct (Ht j t0 Ej Hrun) as (? & ? & ?).
    rewrite elem_without, elem_drop_get. cbn. apply Nat.eqb_neq in Hne as E. rewrite E. done.
  - destruct Ha as (a & -> & Ha). apply Hr in Ha. rewrite (is_obj_alive _ _ _ Ha) in Hk by done.
    destruct (path && ok); cbn in Hk; injection Hk as <- <-; [|done]. cbn [note]. apply build_InvB; cbn; [by apply memb_bee|done|].
    intros j t Hj Hrun. destruct (Ht j t Hj Hrun) as (? & ? & ?). by rewrite elem_of_cons; auto.
  - destruct Ha as (a & -> & Ha & Hg). apply Hb in Ha. rewrite (is_obj_alive _ _ _ Ha) in Hk by done. injection Hk as <- <-.
    cbn [note]. apply build_InvB; cbn; [by apply memb_close_bee|done|].
    intros j t Hj Hrun. destruct (Ht j t Hj Hrun) as (? & ? & H3). rewrite elem_without. split_and!; [done|done| |done].
    intros E. rewrite E in H3. by apply Hg in H3.
  - destruct Ha as (a & c & x & -> & H1 & -> & H2 & ->). apply Hr in H1 as H1'. apply Hb in H2 as H2'.
    rewrite (is_obj_alive _ _ _ H1'), (is_obj_alive _ _ _ H2') in Hk by done. cbn [andb addr] in Hk. injection Hk as <- <-.
    cbn [note]. apply build_InvB; cbn; [by apply memb_same|rewrite app_length; cbn; lia|].
    intros j t Hj Hrun. rewrite elem_of_cons. destruct (decide (j < length (cs_tasks st))%nat) as [Hlt|Hge].
    + rewrite lookup_app_l in Hj by done. destruct (Ht j t Hj Hrun) as (? & ? & ?). auto.
    + pose proof Hj as Hl%lookup_lt_Some. rewrite app_length in Hl. cbn in Hl. assert (j = length (cs_tasks st)) as -> by lia.
      rewrite lookup_app_r, Nat.sub_diag in Hj by lia. injection Hj as <-. cbn. rewrite Hc. auto.
  - destruct Ha as (a & -> & Ha). apply Hs in Ha. rewrite (is_obj_alive _ _ _ Ha) in Hk by done. injection Hk as <- <-.
    cbn [note]. apply build_InvB; cbn; [by apply memb_free_string|done|done].
  - destruct Ha as [[-> ->]|(a & -> & Ha)]; [cbn in Hk; by injection Hk as <- <-|]. apply Hu in Ha as (x & Ha & <-). cbn [at_ptr] in Hk.
    rewrite Ha, Nat.eqb_refl in Hk. injection Hk as <- <-. cbn [note]. apply build_InvB; cbn; [by eapply memb_free_buffer|done|done].
  - destruct (cs_tasks st !! j) as [t|] eqn:Ej; [|by injection Hk as <- <-]. destruct (gt_run t) eqn:Er; [|by injection Hk as <- <-].
    assert (forall t', cs_tasks st !! j = Some t -> gt_run t' = false \/ (gt_rt t' = gt_rt t /\ gt_bee t' = gt_bee t) ->
      forall j' t1, <[j := t']> (cs_tasks st) !! j' = Some t1 -> gt_run t1 = true ->
      gt_rt t1 ∈ b_runtimes b /\ gt_bee t1 ∈ b_bees b /\ (j', gt_rt t1, gt_bee t1) ∈ b_gets b /\ (gt_run t' = false -> j' <> j)) as Hins.
    { intros t' _ Ht' j' t1 H1 H2. apply list_lookup_insert_Some in H1 as [(<- & <- & _)|[Hne H1]].
      - destruct Ht' as [?|[-> ->]]; [congruence|]. destruct (Ht j t Ej Er) as (? & ? & ?). split_and!; try done. congruence.
      - destruct (Ht j' t1 H1 H2) as (? & ? & ?). split_and!; try done. }
    destruct (gt_prog t) as [cb|x|k|q k|bb k|q k|q e k|nd k|n k|n f k] eqn:Ep.
    1: { destruct (hand_over (cb_value cb) (cs_mem st)) as [pv m1] eqn:Eh. cbn in Hk. injection Hk as <- <-. cbn [note].
      apply build_InvB; cbn; [|by rewrite insert_length|].
      * destruct (cb_value cb) as [|y v] eqn:Ev; cbn in Eh; injection Eh as <- <-.
        -- by apply (memb_string b).
        -- eapply (memb_string (Book _ _ _ _ [] 0)). by apply (memb_buffer b _ _ _ (y :: v)).
      * intros j' t1 H1 H2. destruct (Hins (stop_task t) Ej (or_introl eq_refl) j' t1 H1 H2) as (? & ? & ? & Hne). split_and!; [done|done|].
        rewrite elem_drop_get. split; [done|]. cbn. specialize (Hne eq_refl). apply Nat.eqb_neq in Hne. by rewrite Hne. }
    1: { injection Hk as <- <-. cbn [note]. apply build_InvB; cbn; [done|by rewrite insert_length|].
      intros j' t1 H1 H2. by destruct (Hins (stop_task t) Ej (or_introl eq_refl) j' t1 H1 H2) as (? & ? & ? & _). }
    all: destruct (Ht j t Ej Er) as (_ & Hbee%Hb & _); rewrite (is_obj_alive _ _ _ Hbee) in Hk by done.
    all: destruct (step _ _) as [p' s']; injection Hk as <- <-; cbn [note]; apply build_InvB; cbn; [done|by rewrite insert_length|].
    all: intros j' t1 H1 H2.
    all: destruct (Hins (GetTask (gt_rt t) (gt_bee t) p' (oracle s') true) Ej (or_intror (conj eq_refl eq_refl)) j' t1 H1 H2) as (? & ? & ? & _); done.
Qed.

Lemma keeps_rules_snoc tr x : forall b, keeps_rules b (tr ++ [x]) <-> keeps_rules b tr /\ allowed (fold_left note tr b) (fst x).
Proof.
  induction tr as [|y tr IH]; intros b; cbn; [tauto|]. rewrite IH. tauto.
Qed.
Lemma rules_reach fuel base l tr st : creach fuel (cstart fuel base l) tr st -> keeps_rules empty_book tr -> InvB (book_of tr) st.
Proof.
  induction 1 as [|tr st k o st' Hr IH Hk]; intros Hrules; [apply invb_start|].
  apply keeps_rules_snoc in Hrules as [H1 H2]. unfold book_of. rewrite fold_left_app. cbn. eapply rules_inv; eauto.
Qed.
Lemma rules_safe fuel base l tr st k : creach fuel (cstart fuel base l) tr st -> keeps_rules empty_book tr -> allowed (book_of tr) k ->
  exists o st', cstep fuel k st = Some (o, st').
Proof. intros Hr Hk. apply rules_defined. by eapply rules_reach. Qed.
Lemma rules_owned fuel base l tr st a : creach fuel (cstart fuel base l) tr st -> keeps_rules empty_book tr ->
  is_Some (alive (cs_mem st) a) <->
  a ∈ b_runtimes (book_of tr) \/ a ∈ b_bees (book_of tr) \/ a ∈ b_strings (book_of tr) \/ exists n, (a, n) ∈ b_buffers (book_of tr).
Proof.
  intros Hr Hk. destruct (rules_reach _ _ _ _ _ Hr Hk) as [H1 H2 H3 H4 _ _]. rewrite H1, H2, H3. setoid_rewrite H4. split.
  - intros [[| | |x] ->]; eauto 10.
  - intros [->|[->|[->|(n & x & -> & _)]]]; eauto.
Qed.

(** ** The answers are right *)
Fixpoint tracks (p : prog callback) (q : prog reply) : Prop :=
  match p, q with
  | Ret cb, Ret r => r = RGet (Some (cb_seq cb, Some (cb_value cb))) /\ cb_error cb = 0%Z
  | Stop _, _ => True
  | CoreLen k, CoreLen k' => forall v, tracks (k v) (k' v)
  | CoreGet a k, CoreGet b k' => a = b /\ forall v, tracks (k v) (k' v)
  | CoreAppend a k, CoreAppend b k' => a = b /\ forall v, tracks (k v) (k' v)
  | CacheGet a k, CacheGet b k' => a = b /\ forall v, tracks (k v) (k' v)
  | CachePut a e k, CachePut b e' k' => a = b /\ e = e' /\ tracks k k'
  | NodeNew a k, NodeNew b k' => a = b /\ forall v, tracks (k v) (k' v)
  | NodeGet a k, NodeGet b k' => a = b /\ forall v, tracks (k v) (k' v)
  | NodeUpd a f k, NodeUpd b f' k' => a = b /\ f = f' /\ forall v, tracks (k v) (k' v)
  | _, _ => False
  end.
Lemma tracks_get fuel key : tracks (hb_get_task fuel key) (api fuel (CGet key)).
Proof.
  unfold hb_get_task, api. cbn [call_prog]. generalize (tree_get fuel key) as p.
  induction p as [r|x|k IH|q k IH|b k IH|q k IH|q e k IH|nd k IH|n k IH|n f k IH]; cbn; try (repeat split; apply IH).
  - destruct r as [[q [v|]]|]; by cbn.
  - by destruct x.
Qed.
Definition over {A} (p : prog A) : Prop := match p with Ret _ | Stop _ => True | _ => False end.
Lemma tracks_step p q s : tracks p q -> ~ over p -> snd (step p s) = snd (step q s) /\ tracks (fst (step p s)) (fst (step q s)).
Proof.
  intros Ht Ho. destruct p as [r|x|k|a k|a k|a k|a e k|a k|a k|a f k]; try (by destruct Ho); destruct q; try done; cbn in Ht; cbn [step].
  - cbn. split; [done|apply Ht].
  - destruct Ht as [-> Ht]. destruct (exec_get _ s). cbn. split; [done|apply Ht].
  - destruct Ht as [-> Ht]. destruct (exec_append _ s). cbn. split; [done|apply Ht].
  - destruct Ht as [-> Ht]. cbn. split; [done|apply Ht].
  - destruct Ht as (-> & -> & Ht). cbn. split; [done|apply Ht].
  - destruct Ht as [-> Ht]. cbn. split; [done|apply Ht].
  - destruct Ht as [-> Ht]. destruct (heap s !! _); cbn; [|done]. split; [done|apply Ht].
  - destruct Ht as (-> & -> & Ht). destruct (heap s !! _); cbn; [|done]. destruct (f0 _); cbn; [|done]. split; [done|apply Ht].
Qed.

Lemma tasks_run_more sched more : forall ts w, Forall (fun j => j < length ts)%nat sched ->
  tasks_run sched (ts ++ more) w = (fst (tasks_run sched ts w) ++ more, snd (tasks_run sched ts w)).
Proof.
  induction sched as [|j sched IH]; intros ts w Hs; [done|]. inversion_clear Hs as [|? ? Hj Hs']. cbn [tasks_run].
  rewrite lookup_app_l by done. destruct (ts !! j) as [t|]; [|by apply IH]. destruct (thread_step t w) as [t' w'].
  rewrite insert_app_l by done. apply IH. by rewrite insert_length.
Qed.
Lemma tasks_run_snoc sched j : forall ts w, tasks_run (sched ++ [j]) ts w =
  let '(ts', w') := tasks_run sched ts w in
  match ts' !! j with Some t => let '(t', w2) := thread_step t w' in (<[j := t']> ts', w2) | None => (ts', w') end.
Proof.
  induction sched as [|i sched IH]; intros ts w; cbn [tasks_run app].
  - destruct (ts !! j); [|done]. by destruct (thread_step _ _).
  - destruct (ts !! i); [|apply IH]. destruct (thread_step _ _). apply IH.
Qed.
Lemma sys_tasks fuel sched : forall ts w, sys_run fuel (map MThread sched) (Sys idle ts w) =
  Sys idle (fst (tasks_run sched ts w)) (snd (tasks_run sched ts w)).
Proof.
  induction sched as [|j sched IH]; intros ts w; [done|]. cbn [map sys_run sys_step tasks_run y_threads y_world y_actor].
  destruct (ts !! j); [|apply IH]. destruct (thread_step _ _). apply IH.
Qed.

Section answers.
  Context (fuel base : nat) (l : list event).
  Definition tasks_of (tr : list (ccall * cobs)) : list (nat * call * list fault) :=
    map (fun x : nat * bytes * list fault => (base + fst (fst x), CGet (snd (fst x)), snd x)%nat) (gets_of tr).
  Definition matches (t : get_task) (th : thread) : Prop :=
    th_handle th = (base + gt_bee t)%nat /\ (gt_run t = true -> th_faults th = gt_faults t /\ tracks (gt_prog t) (th_prog th)).
  Definition Sim (tr : list (ccall * cobs)) (st : cstate) : Prop := cs_base st = base /\
    exists sched ts, Forall (fun j => j < length (tasks_of tr))%nat sched /\
      tasks_run sched (map (task fuel) (tasks_of tr)) (world_after fuel l) = (ts, cs_world st) /\
      Forall2 matches (cs_tasks st) ts.

  Lemma tasks_run_length sched : forall ts w, length (fst (tasks_run sched ts w)) = length ts.
  Proof.
    induction sched as [|j sched IH]; intros ts w; [done|]. cbn [tasks_run]. destruct (ts !! j); [|apply IH].
    destruct (thread_step _ _). rewrite IH. apply insert_length.
  Qed.
  Lemma tasks_of_snoc tr x : tasks_of (tr ++ [x]) = tasks_of tr ++ tasks_of [x].
  Proof. unfold tasks_of, gets_of. by rewrite omap_app, map_app. Qed.

  Lemma sim_other tr st k o st' : tasks_of [(k, o)] = [] -> cs_base st' = cs_base st -> cs_world st' = cs_world st ->
    Forall2 (fun t t' => gt_bee t' = gt_bee t /\ (gt_run t' = true -> t' = t)) (cs_tasks st) (cs_tasks st') -> Sim tr st -> Sim (tr ++ [(k, o)]) st'.
  Proof.
    intros H1 H2 H3 H4 (Hb & sched & ts & S1 & S2 & S3). split; [congruence|]. exists sched, ts.
    rewrite tasks_of_snoc, H1, app_nil_r, H3. split_and!; [done|done|].
    apply Forall2_same_length_lookup. split; [by rewrite <-(Forall2_length _ _ _ H4), (Forall2_length _ _ _ S3)|].
    intros i t' th Ht' Hth. destruct (Forall2_lookup_r _ _ _ _ _ H4 Ht') as (t & Ht & E1 & E2).
    destruct (Forall2_lookup_lr _ _ _ _ _ _ S3 Ht Hth) as [M1 M2]. split; [by rewrite E1|].
    intros Hrun. specialize (E2 Hrun). subst t'. by apply M2.
  Qed.
  Lemma same_tasks (ts : list get_task) : Forall2 (fun t t' => gt_bee t' = gt_bee t /\ (gt_run t' = true -> t' = t)) ts ts.
  Proof. by apply Forall_Forall2_diag, Forall_true. Qed.
  Lemma stopped_tasks (ts : list get_task) j t : ts !! j = Some t ->
    Forall2 (fun t t' => gt_bee t' = gt_bee t /\ (gt_run t' = true -> t' = t)) ts (<[j := stop_task t]> ts).
  Proof.
    intros Hj. apply Forall2_same_length_lookup. split; [by rewrite insert_length|]. intros i x y Hx Hy.
    apply list_lookup_insert_Some in Hy as [(<- & <- & _)|[_ Hy]]; [|rewrite Hx in Hy; by injection Hy as ->].
    rewrite Hj in Hx. by injection Hx as <-.
  Qed.

  Lemma sim_cstep tr st k o st' : Sim tr st -> cstep fuel k st = Some (o, st') -> Sim (tr ++ [(k, o)]) st'.
  Proof.
    intros HS Hk. destruct k as [ok|p|p path ok|p|rt hb key of|p|p len|j]; cbn [cstep] in Hk.
    - destruct ok; cbn in Hk; injection Hk as <- <-; apply (sim_other tr st); eauto using same_tasks.
    - destruct (_ && _); [|done]. injection Hk as <- <-. apply (sim_other tr st); eauto. cbn [cs_tasks].
      apply Forall2_same_length_lookup. split; [by rewrite map_length|]. intros i x y Hx Hy. rewrite list_lookup_fmap, Hx in Hy.
      injection Hy as <-. unfold cancel. by destruct (_ =? _)%nat.
    - destruct (is_obj _ _ _); [|done]. destruct (_ && _); cbn in Hk; injection Hk as <- <-; apply (sim_other tr st); eauto using same_tasks.
    - destruct (is_obj _ _ _); [|done]. injection Hk as <- <-; apply (sim_other tr st); eauto using same_tasks.
    - destruct key as [key|]; [|done]. destruct (_ && _); [|done]. injection Hk as <- <-.
      destruct HS as (Hb & sched & ts & S1 & S2 & S3). split; [done|]. rewrite tasks_of_snoc.
      exists sched, (ts ++ [task fuel (base + addr hb, CGet key, of)%nat]). split_and!.
      + eapply Forall_impl; [exact S1|]. cbn. intros i. rewrite app_length. lia.
      + rewrite map_app, tasks_run_more by (by rewrite map_length). rewrite S2. done.
      + cbn. apply Forall2_app; [done|]. repeat constructor. cbn. apply tracks_get.
    - destruct (is_obj _ _ _); [|done]. injection Hk as <- <-; apply (sim_other tr st); eauto using same_tasks.
    - assert (cs_base st' = cs_base st /\ cs_world st' = cs_world st /\ cs_tasks st' = cs_tasks st) as (E1 & E2 & E3).
      { destruct p; cbn in Hk.
        - done.
        - destruct (len =? 0)%nat; [|done]. by injection Hk as <- <-.
        - destruct (alive _ _) as [[]|]; try done. destruct (len =? _)%nat; [|done]. by injection Hk as <- <-. }
      apply (sim_other tr st); eauto. rewrite E3. apply same_tasks.
    - destruct (cs_tasks st !! j) as [t|] eqn:Ej; [|injection Hk as <- <-; apply (sim_other tr st); eauto using same_tasks].
      destruct (gt_run t) eqn:Er; [|injection Hk as <- <-; apply (sim_other tr st); eauto using same_tasks].
      assert (over (gt_prog t) \/ ~ over (gt_prog t)) as [Ho|Ho] by (destruct (gt_prog t); cbn; tauto).
      + destruct (gt_prog t) as [cb|x| | | | | | | |] eqn:Ep; try done.
        * destruct (hand_over _ _). cbn in Hk. injection Hk as <- <-. apply (sim_other tr st); eauto using stopped_tasks.
        * injection Hk as <- <-. apply (sim_other tr st); eauto using stopped_tasks.
      + assert (exists p' s', step (gt_prog t) (view (cs_world st) (cs_base st + gt_bee t) (gt_faults t)) = (p', s') /\
          st' = CState (cs_mem st) (cs_base st) (commit_view (cs_world st) (cs_base st + gt_bee t) s')
                    (<[j := GetTask (gt_rt t) (gt_bee t) p' (oracle s') true]> (cs_tasks st))) as (p' & s' & Es & ->).
        { destruct (gt_prog t); try (by destruct Ho); destruct (is_obj _ _ _); try done; destruct (step _ _) as [p' s']; injection Hk as <- <-; eauto. }
        assert (o = ONothing) as ->.
        { destruct (gt_prog t); try (by destruct Ho); destruct (is_obj _ _ _); try done; destruct (step _ _); by injection Hk as <- _. }
        destruct HS as (Hb & sched & ts & S1 & S2 & S3). destruct (Forall2_lookup_l _ _ _ _ _ S3 Ej) as (th & Hth & M1 & M2).
        destruct (M2 Er) as [M3 M4]. split; [done|].
        assert (j < length (tasks_of tr))%nat as Hj.
        { apply lookup_lt_Some in Hth. pose proof (tasks_run_length sched (map (task fuel) (tasks_of tr)) (world_after fuel l)) as E.
          rewrite S2 in E. cbn in E. rewrite map_length in E. lia. }
        assert (thread_step th (cs_world st) = (Thread (base + gt_bee t)%nat (fst (step (th_prog th) (view (cs_world st) (base + gt_bee t)%nat (gt_faults t)))) (oracle s'),
          commit_view (cs_world st) (cs_base st + gt_bee t) s') /\ tracks p' (fst (step (th_prog th) (view (cs_world st) (base + gt_bee t)%nat (gt_faults t))))) as [E1 E2].
        { destruct (tracks_step _ _ (view (cs_world st) (base + gt_bee t)%nat (gt_faults t)) M4 Ho) as [T1 T2]. rewrite Hb in Es. rewrite Es in T1, T2. cbn in T1, T2.
          unfold thread_step. rewrite M1, M3, Hb. destruct (step (th_prog th) _) as [q s]. cbn in *. subst s. done. }
        exists (sched ++ [j]), (<[j := Thread (base + gt_bee t)%nat (fst (step (th_prog th) (view (cs_world st) (base + gt_bee t)%nat (gt_faults t)))) (oracle s')]> ts).
        rewrite tasks_of_snoc. change (tasks_of [(KStep j, ONothing)]) with (@nil (nat * call * list fault)). rewrite app_nil_r. split_and!.
        * apply Forall_app. by split; [|repeat constructor].
        * rewrite tasks_run_snoc, S2, Hth, E1. done.
        * cbn [cs_tasks]. apply Forall2_insert; [done|]. by split.
  Qed.
  Lemma sim_reach tr st : creach fuel (cstart fuel base l) tr st -> Sim tr st.
  Proof.
    induction 1 as [|tr st k o st' Hr IH Hk]; [|by eapply sim_cstep]. split; [done|]. exists [], []. by repeat constructor.
  Qed.
End answers.

Lemma bad_never l i : Forall (fun e => ~ uses e i) l -> usable l i.
Proof. intros H Hb. by apply (bad_end_unused l i H nobody). Qed.

Lemma callbacks_right fuel base l tr st k j code msg seq val len st' :
  history fuel 1 l -> (forall i, (base <= i)%nat -> Forall (fun e => ~ uses e i) l) ->
  creach fuel (cstart fuel base l) tr st -> cstep fuel k st = Some (OCallback j code msg seq val len, st') ->
  exists bee key o v, gets_of tr !! j = Some (bee, key, o) /\ code = 0%Z /\ at_ptr (cs_mem st') msg = Some OString /\
    (at_ptr (cs_mem st') val = Some (OBuffer v) \/ (val = PEmpty /\ v = [])) /\ length v = len /\
    forall i, usable l i -> fst (do_call fuel i (CGet key) [] (world_after fuel l)) = inl (RGet (Some (seq, Some v))).
Proof.
  intros Hl Hbase Hr Hk. destruct (sim_reach _ _ _ _ _ Hr) as (Hb & sched & ts & S1 & S2 & S3).
  assert (exists t cb pv m1, cs_tasks st !! j = Some t /\ gt_run t = true /\ gt_prog t = Ret cb /\ hand_over (cb_value cb) (cs_mem st) = (pv, m1) /\
    code = cb_error cb /\ msg = PAt (length m1) /\ seq = cb_seq cb /\ val = pv /\ len = length (cb_value cb) /\ cs_mem st' = m1 ++ [Some OString])
    as (t & cb & pv & m1 & Hj & Hrun & Hp & Hh & -> & -> & -> & -> & -> & Hm).
  { destruct k as [ok|p|p path ok|p|rt hb key of|p|p len'|j']; cbn [cstep] in Hk.
    - by destruct ok.
    - by destruct (_ && _).
    - destruct (is_obj _ _ _); [|done]. by destruct (_ && _).
    - by destruct (is_obj _ _ _).
    - destruct key; [|done]. by destruct (_ && _).
    - by destruct (is_obj _ _ _).
    - destruct p; cbn in Hk; [done|by destruct (len' =? 0)%nat|]. destruct (alive _ _) as [[]|]; try done. by destruct (len' =? _)%nat.
    - destruct (cs_tasks st !! j') as [t|] eqn:Ej; [|done]. destruct (gt_run t) eqn:Er; [|done].
      destruct (gt_prog t) as [cb| | | | | | | | |] eqn:Ep; try done; try (destruct (is_obj _ _ _); [|done]; by destruct (step _ _)).
      destruct (hand_over (cb_value cb) (cs_mem st)) as [pv m1] eqn:Eh. cbn in Hk. injection Hk as <- <- <- <- <- <- <-.
      exists t, cb, pv, m1. done. }
  destruct (Forall2_lookup_l _ _ _ _ _ S3 Hj) as (th & Hth & M1 & M2). destruct (M2 Hrun) as [_ M4]. rewrite Hp in M4.
  assert (j < length (tasks_of base tr))%nat as Hlt.
  { apply lookup_lt_Some in Hth. pose proof (tasks_run_length sched (map (task fuel) (tasks_of base tr)) (world_after fuel l)) as E.
    rewrite S2 in E. cbn in E. rewrite map_length in E. lia. }
  destruct (gets_of tr !! j) as [[[bee key] o]|] eqn:Eg.
  2:{ apply lookup_ge_None in Eg. unfold tasks_of in Hlt. rewrite map_length in Hlt. lia. }
  assert (tasks_of base tr !! j = Some ((base + bee)%nat, CGet key, o)) as Et by (unfold tasks_of; by rewrite list_lookup_fmap, Eg).
  assert (Forall (reading l []) (tasks_of base tr)) as Hrd.
  { apply Forall_forall. intros x ([[b0 k0] o0] & -> & _)%elem_of_list_fmap. cbn. split_and!; try done. apply bad_never, Hbase. lia. }
  destruct (readers_alone fuel l (tasks_of base tr) (map MThread sched) Hl Hrd) as [_ Hans].
  destruct (Hans j _ _ _ Et) as [_ Hans2]. rewrite sys_tasks, S2 in Hans2. unfold answer in Hans2. cbn [y_threads fst] in Hans2. rewrite Hth in Hans2.
  cbn [fmap option_fmap option_map] in Hans2. destruct (th_prog th) as [r| | | | | | | | |]; try done. destruct M4 as [-> E0].
  exists bee, key, o, (cb_value cb). split_and!; [done|done| | |done|].
  - rewrite Hm. cbn [at_ptr]. by rewrite alive_alloc, Nat.eqb_refl.
  - destruct (cb_value cb) as [|x v]; cbn in Hh; injection Hh as <- <-; [by right|]. left. rewrite Hm. cbn [at_ptr].
    rewrite alive_alloc. rewrite (proj2 (Nat.eqb_neq _ _)) by (rewrite app_length; cbn; lia). by rewrite alive_alloc, Nat.eqb_refl.
  - intros i Hu. destruct (Hans2 _ eq_refl) as [E|[_ (b & _ & [(e & [=] & _)|(conf & its & b' & [=] & _)])]].
    rename t into tk. reach Hl. destruct (call_clean _ _ _ _ fuel 0 i (CGet key) HI Hu Hfit I) as (w1 & D1 & _ & _).
    destruct (call_clean _ _ _ _ fuel 0 (base + bee)%nat (CGet key) HI ltac:(apply bad_never, Hbase; lia) Hfit I) as (w2 & D2 & _ & _).
    rewrite D1. rewrite D2 in E. cbn [fst] in *. by rewrite <-E.
Qed.

(** ** No get is answered twice *)
Lemma cstep_running fuel k st o st' j t : cstep fuel k st = Some (o, st') -> cs_tasks st !! j = Some t -> gt_run t = false ->
  exists t', cs_tasks st' !! j = Some t' /\ gt_run t' = false.
Proof.
  intros Hk Hj Hrun. destruct k as [ok|p|p path ok|p|rt hb key of|p|p len'|j']; cbn [cstep] in Hk.
  - destruct ok; cbn in Hk; injection Hk as <- <-; eauto.
  - destruct (_ && _); [|done]. injection Hk as <- <-. cbn [cs_tasks]. rewrite list_lookup_fmap, Hj. cbn. eexists. split; [done|].
    unfold cancel. by destruct (_ =? _)%nat.
  - destruct (is_obj _ _ _); [|done]. destruct (_ && _); cbn in Hk; injection Hk as <- <-; eauto.
  - destruct (is_obj _ _ _); [|done]. injection Hk as <- <-; eauto.
  - destruct key; [|done]. destruct (_ && _); [|done]. injection Hk as <- <-. exists t. split; [|done]. cbn [cs_tasks].
    rewrite lookup_app_l; [done|by eapply lookup_lt_Some].
  - destruct (is_obj _ _ _); [|done]. injection Hk as <- <-; eauto.
  - destruct p; cbn in Hk; [done|destruct (len' =? 0)%nat; [|done]; injection Hk as <- <-; eauto|].
    destruct (alive _ _) as [[]|]; try done. destruct (len' =? _)%nat; [|done]. injection Hk as <- <-. eauto.
  - destruct (cs_tasks st !! j') as [t'|] eqn:Ej; [|injection Hk as <- <-; eauto]. destruct (gt_run t') eqn:Er; [|injection Hk as <- <-; eauto].
    assert (j <> j') by congruence.
    assert (exists t2, cs_tasks st' = <[j' := t2]> (cs_tasks st)) as [t2 ->].
    { destruct (gt_prog t') as [cb| | | | | | | | |] eqn:Ep; try (destruct (is_obj _ _ _); [|done]; destruct (step _ _)); try (injection Hk as <- <-; by eexists).
      destruct (hand_over _ _). cbn in Hk. injection Hk as <- <-. by eexists. }
    exists t. rewrite list_lookup_insert_ne; done.
Qed.
Lemma cstep_callback fuel k st o st' j : cstep fuel k st = Some (o, st') -> answers_get j (k, o) ->
  exists t t', cs_tasks st !! j = Some t /\ gt_run t = true /\ cs_tasks st' !! j = Some t' /\ gt_run t' = false.
Proof.
  intros Hk Ha. unfold answers_get in Ha. cbn [snd] in Ha. destruct o as [| | |j0 code msg seq val len]; try done. subst j0.
  destruct k as [ok|p|p path ok|p|rt hb key of|p|p len'|j']; cbn [cstep] in Hk.
  - by destruct ok.
  - by destruct (_ && _).
  - destruct (is_obj _ _ _); [|done]. by destruct (_ && _).
  - by destruct (is_obj _ _ _).
  - destruct key; [|done]. by destruct (_ && _).
  - by destruct (is_obj _ _ _).
  - destruct p; cbn in Hk; [done|by destruct (len' =? 0)%nat|]. destruct (alive _ _) as [[]|]; try done. by destruct (len' =? _)%nat.
  - destruct (cs_tasks st !! j') as [t|] eqn:Ej; [|done]. destruct (gt_run t) eqn:Er; [|done].
    destruct (gt_prog t) as [cb| | | | | | | | |] eqn:Ep; try done; try (destruct (is_obj _ _ _); [|done]; by destruct (step _ _)).
    destruct (hand_over (cb_value cb) (cs_mem st)) as [pv m1] eqn:Eh. cbn in Hk. injection Hk as <- <- <- <- <- <- <-.
    exists t, (stop_task t). cbn [cs_tasks]. rewrite list_lookup_insert by (by eapply lookup_lt_Some). done.
Qed.
Lemma answered_once fuel st0 tr st : creach fuel st0 tr st -> forall j n n' x x', tr !! n = Some x -> tr !! n' = Some x' ->
  answers_get j x -> answers_get j x' -> n = n'.
Proof.
  assert (forall tr st, creach fuel st0 tr st -> forall j x, x ∈ tr -> answers_get j x -> exists t, cs_tasks st !! j = Some t /\ gt_run t = false) as Hdone.
  { induction 1 as [|tr' st' k o st'' Hr IH Hk]; intros j x Hx Ha; [by apply elem_of_nil in Hx|]. apply elem_of_app in Hx as [Hx|Hx].
    - destruct (IH j x Hx Ha) as (t & ? & ?). by eapply cstep_running.
    - apply elem_of_list_singleton in Hx as ->. destruct (cstep_callback _ _ _ _ _ _ Hk Ha) as (t & t' & _ & _ & ? & ?). eauto. }
  induction 1 as [|tr st k o st' Hr IH Hk]; intros j n n' x x' Hx Hx' Ha Ha'; [by rewrite lookup_nil in Hx|].
  assert (forall m y, (tr ++ [(k, o)]) !! m = Some y -> tr !! m = Some y \/ (m = length tr /\ y = (k, o))) as Hcases.
  { intros m y Hy. destruct (decide (m < length tr)%nat); [left; by rewrite lookup_app_l in Hy|]. right.
    pose proof Hy as Hm%lookup_lt_Some. rewrite app_length in Hm. cbn in Hm. assert (m = length tr) as -> by lia.
    rewrite lookup_app_r, Nat.sub_diag in Hy by lia. by injection Hy as <-. }
  destruct (Hcases _ _ Hx) as [H1|[-> ->]], (Hcases _ _ Hx') as [H2|[-> ->]]; [by eapply IH| | |done].
  - destruct (Hdone _ _ Hr j x) as (t & T1 & T2); [by eapply elem_of_list_lookup_2|done|].
    destruct (cstep_callback _ _ _ _ _ _ Hk Ha') as (t' & _ & T3 & T4 & _). congruence.
  - destruct (Hdone _ _ Hr j x') as (t & T1 & T2); [by eapply elem_of_list_lookup_2|done|].
    destruct (cstep_callback _ _ _ _ _ _ Hk Ha) as (t' & _ & T3 & T4 & _). congruence.
Qed.

(** ** For the examples *)
Lemma crun_reach fuel ks : forall st0 tr0 st tr st', creach fuel st0 tr0 st -> crun fuel ks st = Some (tr, st') -> creach fuel st0 (tr0 ++ tr) st'.
Proof.
  induction ks as [|k ks IH]; intros st0 tr0 st tr st' Hr Hk; cbn in Hk; [injection Hk as <- <-; by rewrite app_nil_r|].
  destruct (cstep fuel k st) as [[o st1]|] eqn:E1; [|done]. destruct (crun fuel ks st1) as [[tr2 st2]|] eqn:E2; [|done]. injection Hk as <- <-.
  rewrite (cons_middle _ tr0), app_assoc. eapply IH; [|done]. by econstructor.
Qed.
Definition in_b (a : nat) (l : list nat) : bool := existsb (Nat.eqb a) l.
Lemma in_b_true a l : in_b a l = true -> a ∈ l.
Proof. unfold in_b. intros (x & Hx & <-%Nat.eqb_eq)%existsb_exists. by apply elem_of_list_In. Qed.
Definition allowed_b (b : book) (k : ccall) : bool :=
  match k with
  | KInit _ | KStep _ => true
  | KOpen (PAt a) _ _ | KCloseRuntime (PAt a) => in_b a (b_runtimes b)
  | KCloseBee (PAt a) => in_b a (b_bees b) && forallb (fun g => negb (snd g =? a)%nat) (b_gets b)
  | KGet (PAt a) (PAt c) (Some _) _ => in_b a (b_runtimes b) && in_b c (b_bees b)
  | KFreeString (PAt a) => in_b a (b_strings b)
  | KFreeBuffer PEmpty len => (len =? 0)%nat
  | KFreeBuffer (PAt a) len => existsb (fun x => (fst x =? a)%nat && (snd x =? len)%nat) (b_buffers b)
  | _ => false
  end.
Lemma allowed_b_true b k : allowed_b b k = true -> allowed b k.
Proof.
  destruct k as [ok|[| |a]|[| |a] path ok|[| |a]|[| |a] [| |c] [x|] o|[| |a]|[| |a] len|j]; cbn; try done.
  - intros H%in_b_true. eauto.
  - intros H%in_b_true. eauto.
  - intros [H1%in_b_true H2]%andb_true_iff. exists a. split_and!; [done|done|]. intros j rt Hj. rewrite forallb_forall in H2.
    apply elem_of_list_In in Hj. specialize (H2 _ Hj). cbn in H2. by rewrite Nat.eqb_refl in H2.
  - intros [H1%in_b_true H2%in_b_true]%andb_true_iff. exists a, c, x. done.
  - intros H%in_b_true. eauto.
  - intros ->%Nat.eqb_eq. by left.
  - intros ([c n] & Hx & [E1%Nat.eqb_eq E2%Nat.eqb_eq]%andb_true_iff)%existsb_exists. cbn in E1, E2. subst. right. exists a. split; [done|]. by apply elem_of_list_In.
Qed.
Fixpoint rules_b (b : book) (tr : list (ccall * cobs)) : bool :=
  match tr with [] => true | x :: tr' => allowed_b b (fst x) && rules_b (note b x) tr' end.
Lemma rules_b_true tr : forall b, rules_b b tr = true -> keeps_rules b tr.
Proof. induction tr as [|x tr IH]; intros b; cbn; [done|]. intros [H1 H2]%andb_true_iff. split; [by apply allowed_b_true|by apply IH]. Qed.

(** A program runs, keeps the rules and ends well. *)
Lemma a_run fuel st0 ks (P : list (ccall * cobs) -> cstate -> bool) :
  (match crun fuel ks st0 with Some (tr, st) => rules_b empty_book tr && P tr st | None => false end) = true ->
  exists tr st, creach fuel st0 tr st /\ keeps_rules empty_book tr /\ P tr st = true.
Proof.
  destruct (crun fuel ks st0) as [[tr st]|] eqn:E; [|done]. intros [H1 H2]%andb_true_iff. exists tr, st.
  split; [|split; [by apply rules_b_true|done]]. eapply (crun_reach _ _ _ []); [constructor|done].
Qed.

(** Two gets at the same time, everything given back. *)
Definition demo_c : list ccall :=
  [KInit true; KOpen (PAt 0) true true; KGet (PAt 0) (PAt 1) (Some (kb 8)) []; KGet (PAt 0) (PAt 1) (Some (kb 200)) []] ++
  concat (repeat [KStep 0; KStep 1] 120) ++ [KFreeString (PAt 3); KFreeBuffer (PAt 2) 1; KCloseRuntime (PAt 0); KCloseBee (PAt 1)].
Definition got_b (x : ccall * cobs) : bool :=
  match snd x with OCallback 0 0%Z (PAt 3) 9 (PAt 2) 1 => true | _ => false end.
Definition nothing_left (st : cstate) : bool := forallb (fun x => match x with None => true | _ => false end) (cs_mem st).

(** The handles from [n] on are not used. *)
Lemma not_used n l : forallb (fun e => forallb (fun i => i <? n)%nat (uses_b e)) l = true -> forall i, (n <= i)%nat -> Forall (fun e => ~ uses e i) l.
Proof.
  intros H i Hi. apply Forall_forall. intros e He Hu. rewrite forallb_forall in H. apply elem_of_list_In in He. specialize (H e He).
  rewrite forallb_forall in H. specialize (H i). apply uses_ok in Hu. apply elem_of_list_In in Hu. apply H, Nat.ltb_lt in Hu. lia.
Qed.

(** A program keeps the rules until it closes something it has, and then a task cannot go on. *)
Lemma a_close fuel st0 ks a :
  (match crun fuel ks st0 with
   | Some (tr, st) => rules_b empty_book tr && in_b a (b_bees (book_of tr)) &&
       match cstep fuel (KCloseBee (PAt a)) st with Some (ONothing, st') => match cstep fuel (KStep 0) st' with None => true | _ => false end | _ => false end
   | None => false end) = true ->
  exists tr st hb, creach fuel st0 (tr ++ [(KCloseBee hb, ONothing)]) st /\ keeps_rules empty_book tr /\
    (exists a, hb = PAt a /\ a ∈ b_bees (book_of tr)) /\ cstep fuel (KStep 0) st = None.
Proof.
  destruct (crun fuel ks st0) as [[tr st]|] eqn:E; [|discriminate]. intros H. apply andb_true_iff in H as [[H1 H2]%andb_true_iff H3].
  destruct (cstep fuel (KCloseBee (PAt a)) st) as [[[] st']|] eqn:E1; try discriminate. destruct (cstep fuel (KStep 0) st') eqn:E2; [discriminate|].
  exists tr, st', (PAt a). split_and!; [|by apply rules_b_true|exists a; split; [done|by apply in_b_true]|done].
  econstructor; [|done]. eapply (crun_reach _ _ _ []); [constructor|done].
Qed.

(** The task still borrows the [Hyperbee] that [close_hyperbee] frees (external.rs:81-85, 133, 137). *)
Lemma close_under_get : exists fuel base l tr st hb,
  history fuel 1 l /\ creach fuel (cstart fuel base l) (tr ++ [(KCloseBee hb, ONothing)]) st /\ keeps_rules empty_book tr /\
  (exists a, hb = PAt a /\ a ∈ b_bees (book_of tr)) /\ cstep fuel (KStep 0) st = None.
Proof.
  exists 60, 20, demo.
  destruct (a_close 60 (cstart 60 20 demo) [KInit true; KOpen (PAt 0) true true; KGet (PAt 0) (PAt 1) (Some (kb 8)) []; KStep 0; KStep 0] 1)
    as (tr & st & hb & H1 & H2 & H3 & H4); [by vm_compute|].
  exists tr, st, hb. split; [case_hyp|]. split; [exact H1|]. split; [exact H2|]. split; [exact H3|exact H4].
Qed.
