(** A call that runs alone waits for no lock. *)
From Coq.Strings Require Import Byte.
From Coq Require Import Lia.
From stdpp Require Import prelude gmap.
From Verif Require Import Bytes Codec Model CodecProofs Order Wp Store Tree Iter Read Zip Pure Seq Mut MutDel MutTop Commit Spec OrderProofs Client Abs Guard Api Call Det Hist Busy Play Main Locks LockProofs.

(** [l], asked for in mode [m], is free for one who holds [h]. *)
Definition clear (h : held) (l : lock) (m : mode) : Prop :=
  forall l' m', (l', m') ∈ h -> l' = l -> m' = MRead /\ m = MRead.

(** [p], holding [h], does what [p'] does unless that panics, asks for free locks only, and
    ends holding [h0]. *)
Inductive gl {A} (h0 : held) : held -> lprog A -> prog A -> Prop :=
| gl_ret a : gl h0 h0 (LRet a) (Ret a)
| gl_stop x : gl h0 h0 (LStop x) (Stop x)
| gl_cut h p : gl h0 h p (Stop SPanic)
| gl_len h k k' : (forall v, gl h0 h (k v) (k' v)) -> gl h0 h (LCoreLen k) (CoreLen k')
| gl_get h q k k' : (forall v, gl h0 h (k v) (k' v)) -> gl h0 h (LCoreGet q k) (CoreGet q k')
| gl_append h b k k' : (forall v, gl h0 h (k v) (k' v)) -> gl h0 h (LCoreAppend b k) (CoreAppend b k')
| gl_cget h q k k' : (forall v, gl h0 h (k v) (k' v)) -> gl h0 h (LCacheGet q k) (CacheGet q k')
| gl_cput h q e k k' : gl h0 h k k' -> gl h0 h (LCachePut q e k) (CachePut q e k')
| gl_new h nd k k' : (forall v, gl h0 h (k v) (k' v)) -> gl h0 h (LNodeNew nd k) (NodeNew nd k')
| gl_nget h n k k' : (forall v, gl h0 h (k v) (k' v)) -> gl h0 h (LNodeGet n k) (NodeGet n k')
| gl_nupd h n f k k' : (forall v, gl h0 h (k v) (k' v)) -> gl h0 h (LNodeUpd n f k) (NodeUpd n f k')
| gl_acq h l m k p' : clear h l m -> gl h0 ((l, m) :: h) k p' -> gl h0 h (LAcq l m k) p'
| gl_rel h l m k p' : gl h0 h k p' -> gl h0 ((l, m) :: h) (LRel l m k) p'.

Lemma gl_bind {A B} h0 h (p : lprog A) p' (f : A -> lprog B) f' :
  gl h0 h p p' -> (forall a, gl h0 h0 (f a) (f' a)) -> gl h0 h (lbind p f) (pbind p' f').
Proof. intros Hp Hf. induction Hp; cbn; try by constructor. apply Hf. Qed.
Lemma gl_attempt {A} h0 h1 h (p : lprog A) p' (f : A + stop -> lprog A) :
  gl h1 h p p' -> (forall a, gl h0 h1 (f (Datatypes.inl a)) (Ret a)) -> (forall x, gl h0 h1 (f (Datatypes.inr x)) (Stop x)) ->
  gl h0 h (lbind (attempt p) f) p'.
Proof. intros Hp Ha Hx. induction Hp; cbn; try by constructor. - apply Ha. - apply Hx. Qed.
Lemma gl_locked {A} h l m (p : lprog A) p' : clear h l m -> gl ((l, m) :: h) ((l, m) :: h) p p' -> gl h h (locked l m p) p'.
Proof.
  intros Hc Hp. unfold locked. constructor; [done|]. eapply gl_attempt; [exact Hp|intros a; by repeat constructor|intros x; by repeat constructor].
Qed.
Lemma gl_catch {A} h (p : lprog A) p' : gl h h p p' -> gl h h (lcatch p) (catch p').
Proof.
  assert (forall h', gl h h' p p' -> gl h h' (lcatch p) (catch p')) as H; [|apply H].
  intros h' Hp. unfold lcatch. induction Hp; cbn; try by constructor. destruct x; constructor.
Qed.
Lemma gl_lift {A} h (p : prog A) : gl h h (lift p) p.
Proof. induction p; cbn; constructor; auto. Qed.

(** Who keeps to the rules and is no deletion. *)
Definition modes_ok (K : kind) (h : held) : Prop := Forall (fun e : lock * mode => mode_ok K (fst e) (snd e)) h.
Lemma ask_clear K h l m : K <> KDel -> may_ask K h l m -> modes_ok K h -> clear h l m.
Proof.
  intros HK [Hm Hn] Hh l' m' Hin ->.
  assert (K = KStream -> forall n m, mode_ok K (LNode n) m -> m = MRead) as Hs.
  { intros -> n m0 [?|[?|?]]; [done|done|done]. }
  assert (K = KStream -> forall n m, mode_ok K (LKids n) m -> m = MRead) as Hs'.
  { intros -> n m0 [?|[?|?]]; [done|done|done]. }
  pose proof (proj1 (Forall_forall _ _) Hh _ Hin) as Hm'. cbn in Hm'.
  destruct h as [|[l1 m1] [|[l2 m2] [|[l3 m3] [|]]]]; [by apply elem_of_nil in Hin| | | |].
  - apply elem_of_list_singleton in Hin. injection Hin as -> ->.
    destruct l1 as [n|n|]; cbn in Hn; try done. destruct Hn as [HKS _]. split; by eapply Hs.
  - apply elem_of_cons in Hin as [Hin|Hin%elem_of_list_singleton]; injection Hin as -> ->; cbn in Hn;
      destruct l1; try done; destruct l2; try done; by destruct Hn.
  - cbn in Hn. destruct l1; try done; destruct l2; try done; destruct l3; try done; destruct l; try done. by destruct Hn.
  - cbn in Hn. destruct l1; try done; destruct l2; try done; destruct l3; try done; destruct l; try done.
Qed.
Lemma gl_of {A} K h0 h (p : lprog A) p' : K <> KDel -> er p p' -> disc K h0 p h -> modes_ok K h -> gl h0 h p p'.
Proof.
  intros HK He. revert h. induction He; intros h Hd Hm; cbn in Hd; try (subst; by constructor); try (constructor; auto).
  - eapply ask_clear; [done|apply Hd|done].
  - apply IHHe; [apply Hd|]. constructor; [apply Hd|done].
  - destruct Hd as (h' & -> & Hd). constructor. apply IHHe; [done|]. by inversion Hm.
Qed.
Lemma gl_put {A} (p : lprog A) p' : er p p' -> disc KPut [] p [] -> gl [] [] p p'.
Proof. intros He Hd. by eapply gl_of; [|exact He|exact Hd|constructor]. Qed.

(** ** Deletions, with the check that no node is merged with itself *)
Ltac clr := intros ? ? Hclr ->; repeat (apply elem_of_cons in Hclr as [Hclr|Hclr]; [congruence|]); by apply elem_of_nil in Hclr.
#[local] Hint Resolve er_get_key_value er_get_child er_num_keys er_num_children er_is_leaf er_add_changes er_root er_replace er_donor_index
  er_maybe_rotate er_propagate : glx.
#[local] Hint Resolve disc_get_key_value disc_get_child disc_num_keys disc_num_children disc_is_leaf disc_nearest_node disc_add_changes disc_root disc_replace
  disc_donor_index disc_maybe_rotate disc_propagate writes_put : glx.
Lemma er_nearest_node fuel n key : er (l_nearest_node fuel n key) (nearest_node fuel n key).
Proof. unfold l_nearest_node, nearest_node. apply er_nearest. Qed.
#[local] Hint Resolve er_nearest_node : glx.
Create HintDb gl.
Ltac gl_step := lazymatch goal with
  | |- gl _ _ (LRet _) (Ret _) => constructor
  | |- gl _ _ (LStop _) _ => constructor
  | |- gl _ _ (lift _) _ => apply gl_lift
  | |- gl _ _ (locked _ _ _) _ => apply gl_locked; [solve [clr]|]
  | |- gl _ _ (node_read _ _) _ => apply gl_locked; [solve [clr]|]
  | |- gl _ _ (node_write _ _) _ => apply gl_locked; [solve [clr]|]
  | |- gl _ _ (kids_read _ _) _ => apply gl_locked; [solve [clr]|apply gl_locked; [solve [clr]|]]
  | |- gl _ _ (wchildren _ _) _ => apply gl_locked; [solve [clr]|apply gl_locked; [solve [clr]|]]
  | |- gl _ _ (lcatch _) (catch _) => apply gl_catch
  | |- gl _ _ (lbind _ _) (pbind _ _) => apply gl_bind; [|intros ?]
  | |- gl _ _ (match ?x with _ => _ end) _ => destruct x
  end.
Ltac gls := repeat first [solve [auto with gl nocore] | solve [apply gl_put; auto with glx nocore] | gl_step].

Lemma gl_maybe_merge sd f di dc ch : gl [] [] (l_maybe_merge sd f di dc ch) (maybe_merge_g sd f di dc ch).
Proof.
  unfold l_maybe_merge, maybe_merge_g. apply gl_bind; [gls|intros [dx|]]; [|constructor].
  apply gl_bind; [gls|intros donor]. destruct (bool_decide_reflect (donor = dc)) as [Hd|Hd]; [apply gl_cut|].
  assert (exists l r, (match sd with SLeft => (donor, dc) | SRight => (dc, donor) end) = (l, r) /\ l <> r) as (l & r & -> & Hlr).
  { destruct sd; eexists _, _; (split; [done|congruence]). }
  cbv zeta.
  apply gl_bind; [gls|intros fk]. apply gl_bind; [gls|intros _]. apply gl_bind; [gls|intros nl]. apply gl_bind; [gls|intros rk].
  apply gl_bind; [gls|intros _]. apply gl_bind; [gls|intros nlc].
  apply (gl_bind _ _ _ (pbind (node_mod r (on_children (fun cs => Some (cs, [])))) (fun rc => node_mod l (on_children (fun cs => only (vec_splice nlc nlc rc cs)))))).
  - gls.
  - intros _. cbn [add_node]. gls.
Qed.
#[local] Hint Resolve gl_maybe_merge : gl.
Lemma gl_repair_one f di dc order ch : gl [] [] (l_repair_one f di dc order ch) (repair_one_g f di dc order ch).
Proof. unfold l_repair_one, repair_one_g. gls. Qed.
#[local] Hint Resolve gl_repair_one : gl.
Lemma gl_repair_loop order p : forall f di dc ch, gl [] [] (l_repair_loop p f di dc order ch) (repair_loop_g p f di dc order ch).
Proof.
  induction p as [|[n i] p IH]; intros f di dc ch; cbn [l_repair_loop repair_loop_g];
    (apply gl_bind; [gls|intros ch']); (apply gl_bind; [gls|intros nk]); (apply gl_bind; [gls|intros nc]).
  - destruct (_ && _); [|cbn [add_node]; constructor].
    apply (gl_bind _ _ _ (pbind (node_get f) (fun nd => unwrap (n_children nd !! 0))) _ (fun r => Ret (r, [], ch'))); [gls|intros r; gls].
  - destruct (_ <=? _)%nat; [cbn [add_node]; constructor|auto].
Qed.
#[local] Hint Resolve gl_repair_loop : gl.
Lemma gl_repair p order ch : gl [] [] (l_repair p order ch) (repair_g p order ch).
Proof. destruct p as [|[f di] p]; cbn [l_repair repair_g]; gls. Qed.
#[local] Hint Resolve gl_repair : gl.
Lemma gl_del_cas fuel key cas : gl [] [] (l_tree_del_cas fuel key cas) (tree_del_cas_g fuel key cas).
Proof. unfold l_tree_del_cas, tree_del_cas_g. cbv zeta. cbn [add_node]. gls. Qed.
#[local] Hint Resolve gl_del_cas : gl.
Lemma gl_del fuel key : gl [] [] (l_tree_del fuel key) (tree_del_g fuel key).
Proof. unfold l_tree_del, tree_del_g. apply gl_bind; [gls|intros [[[] ]|]]; gls. Qed.
#[local] Hint Resolve gl_del : gl.

Lemma gl_nodel fuel c : kind_of c <> KDel -> gl [] [] (l_api fuel c) (api fuel c).
Proof. intros HK. exact (gl_of _ _ _ _ _ HK (er_call fuel c) (disc_call fuel c) (Forall_nil_2 _)). Qed.
Lemma gl_call fuel c : gl [] [] (l_api fuel c) (api_g fuel c).
Proof.
  destruct c as [k|k v|k v f|k|k f| |md|conf]; [by apply gl_nodel..| | |by apply gl_nodel|by apply gl_nodel|by apply gl_nodel].
  - apply gl_bind; [apply gl_catch|intros []; constructor]. apply gl_bind; [apply gl_del|intros ?; constructor].
  - apply gl_bind; [apply gl_catch|intros []; constructor]. apply gl_bind; [apply gl_del_cas|intros ?; constructor].
Qed.

(** ** The only task *)
Definition lmatches (p : lprog reply) (r : reply + stop) : Prop :=
  match r with Datatypes.inl a => p = LRet a | Datatypes.inr x => p = LStop x end.
Lemma polls_S n y : lsys_run (repeat (LPoll 0) (S n)) y = lsys_run (repeat (LPoll 0) n) (lsys_step (LPoll 0) y).
Proof. done. Qed.
Lemma view_back w i s : view (commit_view w i s) i (oracle s) = s.
Proof. unfold view, commit_view, set_handle. cbn. rewrite Nat.eqb_refl. by destruct s. Qed.
Definition same_world (w w' : world) : Prop := w_core w = w_core w' /\ forall j, w_handles w j = w_handles w' j.
Lemma commit_commit w i s s' : same_world (commit_view (commit_view w i s) i s') (commit_view w i s').
Proof. split; [done|]. intros j. cbn. unfold set_handle. by destruct (j =? i)%nat. Qed.
Lemma commit_same w i o : same_world w (commit_view w i (view w i o)).
Proof. split; [done|]. intros j. cbn. unfold set_handle. destruct (Nat.eqb_spec j i) as [->|]; [|done]. by destruct (w_handles w i). Qed.
Lemma same_trans w1 w2 w3 : same_world w1 w2 -> same_world w2 w3 -> same_world w1 w3.
Proof. intros [H1 H2] [H3 H4]. split; [congruence|]. intros j. by rewrite H2. Qed.

Lemma clear_granted i h l m : clear h l m -> granted (map (to_req 0 i) h) (to_req 0 i (l, m)) = true.
Proof.
  intros Hc. unfold granted. apply forallb_forall. intros r Hr. apply in_map_iff in Hr as ([l' m'] & <- & Hin).
  apply elem_of_list_In in Hin. specialize (Hc l' m' Hin). apply orb_true_iff.
  destruct (same_lock (to_req 0 i (l', m')) (to_req 0 i (l, m))) eqn:Es; [|by left]. right.
  assert (l' = l) as ->.
  { unfold same_lock in Es. cbn in Es. rewrite Nat.eqb_refl in Es. destruct l' as [a|a|], l as [b|b|]; try done; cbn in Es; f_equal; by apply Nat.eqb_eq. }
  destruct (Hc eq_refl) as [-> ->]. done.
Qed.

Definition ends (i : nat) (y : lsys) (r : reply + stop) (w1 : world) : Prop :=
  exists n pf o' w', lsys_run (repeat (LPoll 0) n) y = LSys [LTask i pf o' Runs] [] w' /\ lmatches pf r /\ same_world w' w1.
Lemma ends_step i y r w1 : ends i (lsys_step (LPoll 0) y) r w1 -> ends i y r w1.
Proof. intros (n & pf & o' & w' & Hy & Hm & Hw). exists (S n), pf, o', w'. by rewrite polls_S. Qed.
Definition goes (i : nat) (h : held) (p : lprog reply) (p' : prog reply) : Prop := forall w o r s',
  run p' (view w i o) = (r, s') -> r <> Datatypes.inr SPanic ->
  ends i (LSys [LTask i p o Runs] (map (to_req 0 i) h) w) r (commit_view w i s').
Lemma cmd_goes i h p1 p1' w s1 r s' : gl [] h p1 p1' -> goes i h p1 p1' -> run p1' s1 = (r, s') -> r <> Datatypes.inr SPanic ->
  ends i (LSys [LTask i p1 (oracle s1) Runs] (match p1 with LStop _ => without 0 (map (to_req 0 i) h) | _ => map (to_req 0 i) h end) (commit_view w i s1)) r (commit_view w i s').
Proof.
  intros HG IH Hrun Hnp.
  assert ((match p1 with LStop _ => without 0 (map (to_req 0 i) h) | _ => map (to_req 0 i) h end) = map (to_req 0 i) h) as ->.
  { destruct p1; try done. inversion HG; subst; [done|]. cbn in Hrun. injection Hrun as <- <-. done. }
  specialize (IH (commit_view w i s1) (oracle s1) r s'). rewrite view_back in IH. destruct (IH Hrun Hnp) as (n & pf & o' & w' & Hy & Hm & Hw).
  exists n, pf, o', w'. split_and!; [done|done|]. eapply same_trans; [exact Hw|apply commit_commit].
Qed.

Lemma alone_run i h p p' : gl [] h p p' -> goes i h p p'.
Proof.
  intros HG. induction HG; intros w o r s' Hrun Hnp.
  - injection Hrun as <- <-. exists 0, (LRet a), o, w. split; [done|]. split; [done|apply commit_same].
  - injection Hrun as <- <-. exists 0, (LStop x), o, w. split; [done|]. split; [done|apply commit_same].
  - injection Hrun as <- <-. done.
  - apply ends_step. cbn in Hrun. by eapply (cmd_goes i h (k _) (k' _)); [|apply H0| |].
  - apply ends_step. cbn in Hrun. unfold lsys_step, task_step. cbn -[exec_get]. destruct (exec_get q (view w i o)) as [v s1] eqn:E.
    eapply (cmd_goes i h (k _) (k' _)); [done|done| |done]. done.
  - apply ends_step. cbn in Hrun. unfold lsys_step, task_step. cbn -[exec_append]. destruct (exec_append b (view w i o)) as [v s1] eqn:E.
    eapply (cmd_goes i h (k _) (k' _)); [done|done| |done]. done.
  - apply ends_step. cbn in Hrun. by eapply (cmd_goes i h (k _) (k' _)); [|apply H0| |].
  - apply ends_step. cbn in Hrun. by eapply (cmd_goes i h k k').
  - apply ends_step. cbn in Hrun. by eapply (cmd_goes i h (k _) (k' _)); [|apply H0| |].
  - apply ends_step. cbn in Hrun. unfold lsys_step, task_step. cbn. destruct (h_heap (w_handles w i) !! n) as [nd|] eqn:E; [|by injection Hrun as <- <-].
    by eapply (cmd_goes i h (k _) (k' _)); [|apply H0| |].
  - apply ends_step. cbn in Hrun. unfold lsys_step, task_step. cbn. destruct (h_heap (w_handles w i) !! n) as [nd|] eqn:E; [|by injection Hrun as <- <-].
    destruct (f nd) as [nd'|]; [|by injection Hrun as <- <-].
    by eapply (cmd_goes i h (k _) (k' _)); [|apply H0| |].
  - apply ends_step, ends_step. unfold lsys_step, task_step. cbn [ls_tasks lookup list_lookup ls_reqs ls_world lt_phase lt_prog lt_handle lt_faults insert list_insert].
    assert (may_go 0 (Req 0 i l m :: map (to_req 0 i) h) = true) as ->; [|by apply IHHG].
    unfold may_go, newest. cbn [rq_task Nat.eqb]. by apply (clear_granted i h l m).
  - apply ends_step. unfold lsys_step, task_step. cbn [ls_tasks lookup list_lookup ls_reqs ls_world lt_phase lt_prog lt_handle lt_faults insert list_insert].
    assert (release (Req 0 i l m) (map (to_req 0 i) ((l, m) :: h)) = map (to_req 0 i) h) as ->; [|by apply IHHG].
    cbn [map release]. change (to_req 0 i (l, m)) with (Req 0 i l m). by rewrite same_req_refl.
Qed.

(** ** Every call of a history, alone *)
Lemma ck_api fuel c : checks (api_g fuel c) (api fuel c).
Proof.
  destruct c as [k|k v|k v f|k|k f| |md|conf]; [apply ck_refl..| | |apply ck_refl|apply ck_refl|apply ck_refl];
    cbn [api_g]; unfold api, call_prog, tree_del_g, tree_del;
    (apply ck_bind; [apply ck_catch|intros []; apply ck_refl]); (apply ck_bind; [|intros ?; apply ck_refl]); [|apply ck_del_cas].
  apply ck_bind; [apply ck_del_cas|intros ?; apply ck_refl].
Qed.
Lemma del_g_run {BB : Base} fuel key cas s m t : valid (core s) -> rep (core s) m t -> okh s t -> chain_small (core s) -> (length (core s) <= fuel)%nat -> u64 (blen key) ->
  match fst (run (tree_del_cas_g fuel key cas) s) with
  | Datatypes.inl (Some (false, _)) => exists e, cas e = false
  | Datatypes.inr SPanic => False
  | _ => True
  end.
Proof.
  intros HV Hr Hok Hsm Hf Hk.
  assert (swp (tree_del_cas_g fuel key cas) (fun r _ => match r with Some (false, _) => exists e, cas e = false | _ => True end) (fun x _ => x <> SPanic) s) as Hswp.
  { eapply swp_del_cas_g; eauto. }
  apply rwp_run in Hswp. destruct (run _ s) as [[r|x] s']; cbn; [done|]. by destruct x.
Qed.
Lemma api_g_run {BB : Base} good w m t fuel i c o :
  WInv good w m t -> good i -> chain_small (w_core w) -> (length (w_core w) <= fuel)%nat -> call_ok c ->
  exists r, fst (run (api_g fuel c) (view w i o)) = Datatypes.inl r /\ run (api_g fuel c) (view w i o) = run (api fuel c) (view w i o).
Proof.
  intros HI Hg Hsm Hf Hc.
  destruct (do_call_spec good w m t fuel i c o HI Hg Hsm Hf Hc) as (r & w' & Hd & _).
  assert (fst (run (api_g fuel c) (view w i o)) <> Datatypes.inr SPanic) as Hnp.
  { pose proof (wi_valid _ _ _ _ HI) as HV. pose proof (wi_rep _ _ _ _ HI) as Hr. pose proof (wi_ok _ _ _ _ HI i Hg) as Hok.
    assert (forall c', c = c' -> fst (run (api fuel c') (view w i o)) <> Datatypes.inr SPanic) as Hn.
    { intros c' <-. unfold do_call in Hd. destruct (run (api fuel c) (view w i o)). injection Hd as -> _. done. }
    destruct c as [k|k v|k v f|k|k f| |md|conf]; [by apply Hn..| | |by apply Hn|by apply Hn|by apply Hn]; cbn [api_g].
    - pose proof (del_g_run fuel k (fun _ => true) (view w i o) m t HV Hr Hok Hsm Hf Hc) as HG. unfold tree_del_g.
      rewrite !run_bind, run_catch, !run_bind. destruct (run (tree_del_cas_g fuel k _) _) as [[[[[] q]|]|[]] s']; cbn in *; try done. by destruct HG.
    - pose proof (del_g_run fuel k f (view w i o) m t HV Hr Hok Hsm Hf Hc) as HG.
      rewrite !run_bind, run_catch, !run_bind. destruct (run (tree_del_cas_g fuel k _) _) as [[[[[] q]|]|[]] s']; cbn in *; done. }
  pose proof (ck_run _ _ (ck_api fuel c) _ Hnp) as He. exists r. unfold do_call in Hd. rewrite He in Hd.
  destruct (run (api_g fuel c) (view w i o)). injection Hd as -> _. done.
Qed.

Lemma polls_add a b y : lsys_run (repeat (LPoll 0) (a + b)) y = lsys_run (repeat (LPoll 0) b) (lsys_run (repeat (LPoll 0) a) y).
Proof. revert y. induction a as [|a IH]; intros y; [done|]. apply IH. Qed.
Lemma polls_fix n y : lsys_step (LPoll 0) y = y -> lsys_run (repeat (LPoll 0) n) y = y.
Proof. intros Hy. induction n as [|n IH]; [done|]. rewrite polls_S, Hy. exact IH. Qed.
Lemma never_blocked y n i r o q w n' : lsys_run (repeat (LPoll 0) n) y = LSys [LTask i (LRet r) o Runs] q w ->
  ~ blocked (lsys_run (repeat (LPoll 0) n') y) 0.
Proof.
  intros Hy Hb. assert (~ blocked (LSys [LTask i (LRet r) o Runs] q w) 0) as Hn. { intros (t & [= <-] & Hp & _). done. }
  destruct (Nat.le_gt_cases n' n) as [Hle|Hle].
  - replace n with (n' + (n - n'))%nat in Hy by lia. rewrite polls_add in Hy. rewrite polls_fix in Hy by (by apply blocked_step). rewrite Hy in Hb. done.
  - replace n' with (n + (n' - n))%nat in Hb by lia. rewrite polls_add, Hy, polls_fix in Hb; done.
Qed.

Lemma call_alone fuel l i c o : history fuel 1 l -> usable l i -> call_ok c ->
  let y n := lsys_run (repeat (LPoll 0) n) (lsys_start fuel [(i, c, o)] (world_after fuel l)) in
  (forall n, ~ blocked (y n) 0) /\
  exists r w' n, do_call fuel i c o (world_after fuel l) = (Datatypes.inl r, w') /\
    l_answer (y n) 0 = Some r /\ ls_reqs (y n) = [] /\
    w_core (ls_world (y n)) = w_core w' /\ forall j, w_handles (ls_world (y n)) j = w_handles w' j.
Proof.
  intros H Hu Hc y. reach H. destruct Hfit as [Hf1 Hf2].
  destruct (api_g_run (usable l) (world_after fuel l) m t fuel i c o HI Hu) as (r & Hr & He);
    [unfold chain_small; unfold with_header in *; lia|unfold with_header in *; lia|done|].
  destruct (run (api_g fuel c) (view (world_after fuel l) i o)) as [r' s'] eqn:E. cbn in Hr. subst r'.
  destruct (alone_run i [] _ _ (gl_call fuel c) _ o _ _ E) as (n & pf & o' & w' & Hy & Hm & Hw); [done|].
  cbn in Hm. subst pf. split; [intros n'; eapply never_blocked; exact Hy|].
  exists r, (commit_view (world_after fuel l) i s'), n. split; [unfold do_call; by rewrite <-He|].
  unfold y. change (lsys_start fuel [(i, c, o)] (world_after fuel l)) with (LSys [LTask i (l_api fuel c) o Runs] (map (to_req 0 i) []) (world_after fuel l)).
  rewrite Hy. split_and!; [done|done|apply Hw|apply Hw].
Qed.
