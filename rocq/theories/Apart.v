(** Calls on different handles do not wait for each other. *)
From Coq.Strings Require Import Byte.
From Coq Require Import Lia.
From stdpp Require Import prelude gmap.
From Verif Require Import Bytes Codec Model CodecProofs Order Wp Store Tree Iter Read Zip Pure Seq Mut MutDel MutTop Commit Spec OrderProofs Client Abs Guard Api Call Det Hist Reader Busy Play Main Thin Found Foreign Locks LockProofs Alone.

(** ** Calls on different handles *)
Local Arguments mine : simpl never.
Local Arguments without : simpl never.
Definition reader (p : lprog reply) : Prop := exists p', er p p' /\ Thin.writes (fun _ => False) p' any.
Lemma reader_call fuel c : reads_only c -> reader (l_api fuel c).
Proof.
  intros Hc. exists (api fuel c). split; [apply er_call|]. destruct (api_says fuel c) as [H].
  assert (forall b, written_by c b -> False) as Hw by by destruct c.
  clear -H Hw. induction (api fuel c); cbn in *; eauto. destruct H. exfalso. eauto.
Qed.
Lemma reader_step p s : reader p -> match p with LAcq _ _ k | LRel _ _ k => reader k | _ => reader (fst (lstep p s)) /\ core (snd (lstep p s)) = core s end.
Proof.
  intros (p' & He & Hw).
  assert (match p with LAcq _ _ _ | LRel _ _ _ => True | _ => reader (fst (lstep p s)) /\ core (snd (lstep p s)) = core s end) as H.
  { pose proof (er_step_cmd p p' s He) as Hs. pose proof (writes_step _ p' any s Hw) as [Hw1 (bs & Hc & Hb)].
    assert (core (snd (step p' s)) = core s) as Hcore. { rewrite Hc. destruct bs as [|b bs]; [by rewrite app_nil_r|]. by inversion Hb. }
    destruct p; try done; destruct Hs as [H1 H2]; (split; [by eexists|by rewrite H2]). }
  destruct p; try exact H; inversion He; subst; by exists p'.
Qed.
Lemma mine_release_other j r q : rq_task r <> j -> mine j (release r q) = mine j q.
Proof.
  intros Hj. induction q as [|x q IH]; [done|]. cbn [release]. destruct (same_req x r) eqn:E.
  - unfold same_req in E. rewrite !andb_true_iff in E. destruct E as [[E%Nat.eqb_eq _] _]. rewrite mine_cons. destruct (Nat.eqb_spec (rq_task x) j); [congruence|done].
  - by rewrite !mine_cons, IH.
Qed.
Lemma other_step j t q w t' q' w' : task_step j t q w = (t', q', w') -> reader (lt_prog t) ->
  lt_handle t' = lt_handle t /\ reader (lt_prog t') /\ (forall j', j' <> j -> mine j' q' = mine j' q) /\ w_core w' = w_core w /\
  (forall i o, i <> lt_handle t -> view w' i o = view w i o).
Proof.
  destruct t as [i p o ph]. intros E Hr. cbn [lt_handle lt_prog] in *.
  pose proof (reader_step p (view w i o) Hr) as Hs.
  assert (forall j' r0 q0, rq_task r0 = j -> j' <> j -> mine j' (r0 :: q0) = mine j' q0) as Hc.
  { intros j' r0 q0 E0 Hj. rewrite mine_cons. destruct (Nat.eqb_spec (rq_task r0) j'); [congruence|done]. }
  unfold task_step in E. cbn [lt_handle lt_prog lt_phase lt_faults] in E. destruct ph.
  - destruct (match p with LRet _ | LStop _ | LAcq _ _ _ | LRel _ _ _ => false | _ => true end) eqn:Ec.
    + assert (let '(p1, s1) := lstep p (view w i o) in (LTask i p1 (oracle s1) Runs, match p1 with LStop _ => without j q | _ => q end, commit_view w i s1) = (t', q', w')) as E'.
      { destruct p; try discriminate Ec; destruct (lstep _ _); exact E. }
      assert (reader (fst (lstep p (view w i o))) /\ core (snd (lstep p (view w i o))) = w_core w) as [H1 H2] by by destruct p.
      destruct (lstep p (view w i o)) as [p1 s1]. cbn in H1, H2. injection E' as <- <- <-. split_and!; [done|done| |done|].
      * intros j' Hj. destruct p1; try done. rewrite mine_without. by destruct (Nat.eqb_spec j' j).
      * intros i' o' Hi. rewrite view_commit. destruct (Nat.eqb_spec i' i); [done|]. unfold view, set_core. cbn. by rewrite H2.
    + destruct p; try done; injection E as <- <- <-; (split_and!; try done); intros j' Hj; [by apply Hc|by apply mine_release_other].
  - destruct p; try (injection E as <- <- <-; done). destruct (may_go j q); injection E as <- <- <-; done.
  - injection E as <- <- <-. done.
Qed.

Definition calm_run (p' : prog reply) (s : st) : Prop := fst (run p' s) <> Datatypes.inr SPanic.
Definition del_ok (j i : nat) (t : ltask) (q : list req) (w : world) : Prop :=
  lt_handle t = i /\
  match lt_phase t with
  | Runs => exists h p', mine j q = map (to_req j i) h /\ gl [] h (lt_prog t) p' /\ calm_run p' (view w i (lt_faults t))
  | Waits => exists h p' l m k, lt_prog t = LAcq l m k /\ mine j q = map (to_req j i) ((l, m) :: h) /\ clear h l m /\
      gl [] ((l, m) :: h) k p' /\ calm_run p' (view w i (lt_faults t))
  | Gone => True
  end.
Lemma gl_acq_inv h l m k p' s : gl [] h (LAcq l m k) p' -> calm_run p' s -> clear h l m /\ gl [] ((l, m) :: h) k p'.
Proof. intros HG Hc. inversion HG; subst; [by destruct Hc|done]. Qed.
Lemma gl_cmd h p p' s w i : gl [] h p p' -> calm_run p' s ->
  match p with
  | LRet _ | LStop _ | LAcq _ _ _ | LRel _ _ _ => True
  | _ => exists p1', gl [] h (fst (lstep p s)) p1' /\ calm_run p1' (view (commit_view w i (snd (lstep p s))) i (oracle (snd (lstep p s))))
  end.
Proof.
  intros HG Hc. rewrite view_back. unfold calm_run in *. destruct HG; try done; try (by destruct Hc); cbn in *; eauto.
  - destruct (exec_get q s); cbn in *; eauto.
  - destruct (exec_append b s); cbn in *; eauto.
  - destruct (heap s !! n); cbn in *; eauto. done.
  - destruct (heap s !! n) as [nd|]; [|done]. destruct (f nd); cbn in *; eauto. done.
Qed.
Lemma del_step j i t q w t' q' w' : task_step j t q w = (t', q', w') -> del_ok j i t q w -> del_ok j i t' q' w'.
Proof.
  destruct t as [i' p o ph]. unfold del_ok. cbn [lt_handle lt_prog lt_faults lt_phase]. intros E [-> Hd].
  unfold task_step in E. cbn [lt_handle lt_prog lt_phase lt_faults] in E. destruct ph.
  - destruct Hd as (h & p' & Hm & HG & Hc).
    destruct (match p with LRet _ | LStop _ | LAcq _ _ _ | LRel _ _ _ => false | _ => true end) eqn:Ec.
    + assert (let '(p1, s1) := lstep p (view w i o) in (LTask i p1 (oracle s1) Runs, match p1 with LStop _ => without j q | _ => q end, commit_view w i s1) = (t', q', w')) as E'.
      { destruct p; try discriminate Ec; destruct (lstep _ _); exact E. }
      pose proof (gl_cmd h p p' (view w i o) w i HG Hc) as Hs.
      assert (exists p1', gl [] h (fst (lstep p (view w i o))) p1' /\ calm_run p1' (view (commit_view w i (snd (lstep p (view w i o)))) i (oracle (snd (lstep p (view w i o)))))) as (p1' & H1 & H2) by by destruct p.
      destruct (lstep p (view w i o)) as [p1 s1]. cbn in H1, H2. injection E' as <- <- <-. split; [done|]. cbn.
      exists h, p1'. split_and!; [|done|done]. destruct p1; try done. inversion H1; subst; [by rewrite mine_without, Nat.eqb_refl|]. by destruct H2.
    + destruct p; try done; injection E as <- <- <-; (split; [done|]); cbn.
      * by exists h, p'.
      * by exists h, p'.
      * destruct (gl_acq_inv _ _ _ _ _ _ HG Hc) as [H1 H2]. exists h, p', l, m, p. rewrite mine_cons. cbn. rewrite Nat.eqb_refl, Hm. done.
      * inversion HG; subst; [by destruct Hc|]. eexists _, p'. split_and!; [|done|done]. rewrite (mine_release j (Req j i l m) q _ Hm). cbn. by rewrite Nat.eqb_refl.
  - destruct Hd as (h & p' & l & m & k & -> & Hm & Hcl & HG & Hc). destruct (may_go j q); injection E as <- <- <-; (split; [done|]); cbn.
    + by eexists _, _.
    + by eexists _, _, _, _, _.
  - injection E as <- <- <-. done.
Qed.

(** ** The whole system *)
Section apart.
  Context (fuel : nat) (xs : list (nat * call * list fault)) (w0 : world).
  Context (Hd : forall a b i c c' o o', xs !! a = Some (i, c, o) -> xs !! b = Some (i, c', o') -> a = b).
  Notation Ks := (map (fun x => kind_of (snd (fst x))) xs).
  Notation y ms := (lsys_run ms (lsys_start fuel xs w0)).

  Lemma apart_handle ms j t : ls_tasks (y ms) !! j = Some t -> exists c o, xs !! j = Some (lt_handle t, c, o).
  Proof.
    intros Ht. pose proof (run_handles ms (lsys_start fuel xs w0)) as Hh. cbn [lsys_start ls_tasks] in Hh.
    assert (map lt_handle (ls_tasks (y ms)) !! j = Some (lt_handle t)) as Hj. { change (map lt_handle) with (fmap (M:=list) lt_handle). by rewrite list_lookup_fmap, Ht. }
    rewrite Hh in Hj. rewrite map_map in Hj. change (map ?f xs) with (f <$> xs) in Hj. rewrite list_lookup_fmap in Hj.
    destruct (xs !! j) as [[[i c] o]|]; [|done]. injection Hj as <-. by exists c, o.
  Qed.
  Lemma apart_free ms j t l m h : ls_tasks (y ms) !! j = Some t ->
    mine j (ls_reqs (y ms)) = map (to_req j (lt_handle t)) ((l, m) :: h) -> clear h l m -> may_go j (ls_reqs (y ms)) = true.
  Proof.
    intros Ht Hm Hc. pose proof (ok_run Ks ms _ (ok_start fuel xs w0)) as Hok. set (q := ls_reqs (y ms)) in *.
    unfold may_go. destruct (newest j q) as [[r b]|] eqn:En.
    2: { exfalso. clear -Hm En. induction q as [|x rs IH]; [done|]. cbn in En. rewrite mine_cons in Hm. destruct (rq_task x =? j)%nat; [done|auto]. }
    apply newest_split in En as (a & Hq & Hr & Hma). assert (r :: mine j b = map (to_req j (lt_handle t)) ((l, m) :: h)) as Hm'.
    { rewrite <- Hm, Hq, mine_app, Hma, mine_cons, Hr, Nat.eqb_refl. done. }
    injection Hm' as Er Eb. unfold granted. apply forallb_forall. intros x Hx. apply orb_true_iff.
    destruct (same_lock x r) eqn:Es; [right|by left]. apply same_lock_eq in Es as [E1 E2].
    assert (In x q) as Hxq by (rewrite Hq; apply in_or_app; right; by right).
    assert (rq_task x = j) as Hxj.
    { destruct (ls_tasks (y ms) !! rq_task x) as [tx|] eqn:Etx.
      - destruct (apart_handle ms _ _ Etx) as (cx & ox & Hx1). destruct (apart_handle ms _ _ Ht) as (cj & oj & Hj1).
        assert (In x (mine (rq_task x) q)) as Hin by (apply filter_In; by rewrite Nat.eqb_refl).
        assert (rq_handle x = lt_handle tx) as Hh.
        { assert (exists K, Ks !! rq_task x = Some K) as (K & HK).
          { apply lookup_lt_is_Some. rewrite (ok_len _ _ Hok). by eapply lookup_lt_Some. }
          pose proof (ok_task _ _ Hok _ tx K Etx HK) as Hk. unfold task_ok in Hk. fold q in Hk. destruct (lt_phase tx).
          - destruct Hk as (h0 & Hm0 & _). rewrite Hm0 in Hin. apply in_map_iff in Hin as (e & <- & _). done.
          - destruct Hk as (l0 & m0 & k0 & h0 & _ & _ & _ & Hm0). rewrite Hm0 in Hin. apply in_map_iff in Hin as (e & <- & _). done.
          - by rewrite Hk in Hin. }
        assert (rq_handle r = lt_handle t) as Hh' by by rewrite Er.
        eapply Hd; [exact Hx1|]. rewrite <- Hh, E1, Hh'. exact Hj1.
      - assert (In x (mine (rq_task x) q)) as Hin by (apply filter_In; by rewrite Nat.eqb_refl). pose proof (ok_none _ _ Hok _ Etx) as E0. fold q in E0. by rewrite E0 in Hin. }
    assert (In x (mine j b)) as Hin by (apply filter_In; split; [done|by apply Nat.eqb_eq]). rewrite Eb in Hin.
    apply in_map_iff in Hin as ([l' m'] & <- & Hin). subst r. cbn in E2. destruct (Hc l' m') as [-> ->]; [by apply elem_of_list_In|done|done].
  Qed.

  (** Who is no del. *)
  Lemma apart_others ms j i c o : xs !! j = Some (i, c, o) -> ~ deletes c -> ~ blocked (y ms) j.
  Proof.
    intros Hx Hnd (t & Ht & Hp & Hg). pose proof (ok_run Ks ms _ (ok_start fuel xs w0)) as Hok.
    assert (Ks !! j = Some (kind_of c)) as HK. { change (map ?f xs) with (f <$> xs). by rewrite list_lookup_fmap, Hx. }
    pose proof (ok_task _ _ Hok _ t _ Ht HK) as Hk. unfold task_ok in Hk. rewrite Hp in Hk. destruct Hk as (l & m & k & h & _ & Ha & _ & Hm).
    rewrite (apart_free ms j t l m h Ht Hm) in Hg; [done|]. eapply ask_clear; [|exact Ha|]; [by destruct c|].
    apply Forall_forall. intros [l' m'] Hin. apply (ok_modes _ _ Hok (to_req j (lt_handle t) (l', m'))); [|done].
    assert (In (to_req j (lt_handle t) (l', m')) (mine j (ls_reqs (y ms)))) as H by (rewrite Hm; right; by apply in_map, elem_of_list_In).
    by apply filter_In in H as [H _].
  Qed.

  (** A del beside readers. *)
  Lemma apart_del_run j i c o : xs !! j = Some (i, c, o) -> calm_run (api_g fuel c) (view w0 i o) ->
    (forall j' i' c' o', xs !! j' = Some (i', c', o') -> j' <> j -> reads_only c') ->
    forall ms, (exists t, ls_tasks (y ms) !! j = Some t /\ del_ok j i t (ls_reqs (y ms)) (ls_world (y ms))) /\
      (forall j' t', ls_tasks (y ms) !! j' = Some t' -> j' <> j -> reader (lt_prog t')).
  Proof.
    intros Hx Hc Hro ms. induction ms as [|mv ms IH] using rev_ind.
    - cbn [lsys_run lsys_start ls_tasks ls_reqs ls_world]. change (map ?f xs) with (f <$> xs). split.
      + exists (LTask i (l_api fuel c) o Runs). rewrite list_lookup_fmap, Hx. split; [done|]. split; [done|]. cbn.
        exists [], (api_g fuel c). split_and!; [done|apply gl_call|done].
      + intros j' t' Ht' Hj. rewrite list_lookup_fmap in Ht'. destruct (xs !! j') as [[[i' c'] o']|] eqn:Ex; [|done]. injection Ht' as <-.
        cbn. eapply reader_call, Hro; [exact Ex|done].
    - destruct IH as [(t & Ht & Hok) Hre]. rewrite run_app. cbn [lsys_run].
      pose proof (apart_handle ms) as Hh. destruct (y ms) as [ts q w]. cbn [ls_tasks ls_reqs ls_world] in *.
      destruct mv as [j1|j1]; cbn [lsys_step ls_tasks ls_reqs ls_world]; (destruct (ts !! j1) as [t1|] eqn:E1; [|cbn; split; [by exists t|done]]).
      + destruct (task_step j1 t1 q w) as [[t1' q'] w'] eqn:Es. cbn [ls_tasks ls_reqs ls_world]. destruct (decide (j1 = j)) as [->|Hne].
        * assert (t1 = t) as -> by congruence. split.
          -- exists t1'. rewrite list_lookup_insert by (by eapply lookup_lt_Some). split; [done|]. by eapply del_step.
          -- intros j' t' Ht' Hj. rewrite list_lookup_insert_ne in Ht' by done. by eapply Hre.
        * destruct (other_step _ _ _ _ _ _ _ Es (Hre _ _ E1 Hne)) as (H1 & H2 & H3 & H4 & H5). split.
          -- exists t. rewrite list_lookup_insert_ne by done. split; [done|]. destruct Hok as [Hti Hok]. split; [done|].
             assert (i <> lt_handle t1) as Hi.
             { intros ->. destruct (Hh _ _ E1) as (c1 & o1 & Hx1). apply Hne. by eapply Hd. }
             rewrite (H3 j) by done. by rewrite (H5 i) by done.
          -- intros j' t' Ht' Hj. destruct (decide (j' = j1)) as [->|Hj1].
             ++ rewrite list_lookup_insert in Ht' by (by eapply lookup_lt_Some). by injection Ht' as <-.
             ++ rewrite list_lookup_insert_ne in Ht' by done. by eapply Hre.
      + cbn [ls_tasks ls_reqs ls_world]. destruct (decide (j1 = j)) as [->|Hne].
        * assert (t1 = t) as -> by congruence. split.
          -- exists (LTask (lt_handle t) (lt_prog t) (lt_faults t) Gone). cbn [ls_tasks]. rewrite list_lookup_insert by (by eapply lookup_lt_Some). split; [done|]. split; [apply Hok|done].
          -- intros j' t' Ht' Hj. rewrite list_lookup_insert_ne in Ht' by done. by eapply Hre.
        * cbn [ls_tasks ls_reqs ls_world]. split.
          -- exists t. rewrite list_lookup_insert_ne by done. split; [done|]. destruct Hok as [Hti Hok]. split; [done|].
             rewrite mine_without. destruct (Nat.eqb_spec j j1); [by subst|done].
          -- intros j' t' Ht' Hj. destruct (decide (j' = j1)) as [->|Hj1].
             ++ rewrite list_lookup_insert in Ht' by (by eapply lookup_lt_Some). injection Ht' as <-. cbn. by eapply Hre.
             ++ rewrite list_lookup_insert_ne in Ht' by done. by eapply Hre.
  Qed.
  Lemma apart_del ms j i c o : xs !! j = Some (i, c, o) -> calm_run (api_g fuel c) (view w0 i o) ->
    (forall j' i' c' o', xs !! j' = Some (i', c', o') -> j' <> j -> reads_only c') -> ~ blocked (y ms) j.
  Proof.
    intros Hx Hc Hro (t & Ht & Hp & Hg). destruct (apart_del_run j i c o Hx Hc Hro ms) as [(t' & Ht' & Hi & Hok) _].
    assert (t' = t) as -> by congruence. rewrite Hp in Hok. destruct Hok as (h & p' & l & m & k & _ & Hm & Hcl & _).
    rewrite (apart_free ms j t l m h Ht) in Hg; [done| |done]. by rewrite Hi.
  Qed.
End apart.

Lemma calls_apart_calm fuel w xs ms :
  (forall a b i c c' o o', xs !! a = Some (i, c, o) -> xs !! b = Some (i, c', o') -> a = b) ->
  (forall j i c o, xs !! j = Some (i, c, o) -> deletes c -> calm_run (api_g fuel c) (view w i o) /\
    forall j' i' c' o', xs !! j' = Some (i', c', o') -> j' <> j -> reads_only c') ->
  (forall j, ~ blocked (lsys_run ms (lsys_start fuel xs w)) j) /\
  exists js, Forall (fun t => l_over t = true) (ls_tasks (lsys_run (ms ++ map LPoll js) (lsys_start fuel xs w))).
Proof.
  intros Hd Hdel. assert (forall ms j, ~ blocked (lsys_run ms (lsys_start fuel xs w)) j) as Hb.
  { intros ms' j Hb. destruct Hb as (u & Ht & Hb). pose proof (apart_handle fuel xs w ms' j u Ht) as (c & o & Hx).
    assert (blocked (lsys_run ms' (lsys_start fuel xs w)) j) as Hbl by by exists u.
    assert (deletes c \/ ~ deletes c) as [Hc|Hc] by (destruct c; cbn; tauto).
    - destruct (Hdel _ _ _ _ Hx Hc) as (Hcalm & Hro). eapply (apart_del fuel xs _ Hd ms' j); [exact Hx|exact Hcalm|exact Hro|exact Hbl].
    - by eapply (apart_others fuel xs _ Hd ms' j). }
  split; [apply Hb|]. setoid_rewrite run_app. eapply run_to_end; [apply ok_run, ok_start|]. intros ms'. rewrite <- run_app.
  intros [(j & t & Ht & Ho) Hs]. eapply Hb, Hs; done.
Qed.
Lemma calls_apart fuel w xs ms :
  (forall a b i c c' o o', xs !! a = Some (i, c, o) -> xs !! b = Some (i, c', o') -> a = b) ->
  (forall j i c o, xs !! j = Some (i, c, o) -> deletes c -> call_ok c /\ (exists l, history fuel 1 l /\ usable l i /\ w = world_after fuel l) /\
    forall j' i' c' o', xs !! j' = Some (i', c', o') -> j' <> j -> reads_only c') ->
  (forall j, ~ blocked (lsys_run ms (lsys_start fuel xs w)) j) /\
  exists js, Forall (fun t => l_over t = true) (ls_tasks (lsys_run (ms ++ map LPoll js) (lsys_start fuel xs w))).
Proof.
  intros Hd Hdel. apply calls_apart_calm; [done|]. intros j i c o Hx Hc. destruct (Hdel _ _ _ _ Hx Hc) as (Hcok & (l & H & Hu & ->) & Hro).
  split; [|done]. reach H. destruct Hfit as [Hf1 Hf2].
  destruct (api_g_run (usable l) (world_after fuel l) m t fuel i c o HI Hu) as (r & Hr & He);
    [unfold chain_small; unfold with_header in *; lia|unfold with_header in *; lia|done|]. unfold calm_run. by rewrite Hr.
Qed.
Lemma calls_apart_any fuel C m l xs ms : found C m -> trusted nobody l -> Forall event_ok l ->
  (Nat.max 1 (length C) + length l < fuel)%nat -> (N.of_nat (Nat.max 1 (length C) + length l) + 1 < 2 ^ 50)%N ->
  (forall a b i c c' o o', xs !! a = Some (i, c, o) -> xs !! b = Some (i, c', o') -> a = b) ->
  (forall j i c o, xs !! j = Some (i, c, o) -> deletes c -> call_ok c /\ usable l i /\
    forall j' i' c' o', xs !! j' = Some (i', c', o') -> j' <> j -> reads_only c') ->
  let y ms := lsys_run ms (lsys_start fuel xs (snd (play fuel l (new_world C)))) in
  (forall j, ~ blocked (y ms) j) /\ exists js, Forall (fun t => l_over t = true) (ls_tasks (y (ms ++ map LPoll js))).
Proof.
  intros Hf Ht Hev Hl Hn Hd Hdel. apply calls_apart_calm; [done|]. intros j i c o Hx Hc. destruct (Hdel _ _ _ _ Hx Hc) as (Hcok & Hu & Hro).
  split; [|done]. destruct (found_rep _ _ Hf) as [t Hr].
  destruct (play_spec (BB := C) l fuel (new_world C) nobody m t) as (rs & w' & b & t' & E1 & E2 & HI & E4 & E5 & [Hf1 Hf2]); [|done|done|split; unfold with_header; cbn; lia|].
  { apply new_world_inv; [apply base_valid|done]. }
  rewrite E1. cbn [snd]. destruct (api_g_run (BB := C) (usable l) w' (s_entries b) t' fuel i c o HI Hu) as (r & Hr' & He);
    [unfold chain_small; unfold with_header in *; lia|unfold with_header in *; lia|done|]. unfold calm_run. by rewrite Hr'.
Qed.

(** ** Cores that others wrote *)
Lemma call_alone_any fuel C m l i c o : found C m -> trusted nobody l -> Forall event_ok l ->
  (Nat.max 1 (length C) + length l < fuel)%nat -> (N.of_nat (Nat.max 1 (length C) + length l) + 1 < 2 ^ 50)%N -> usable l i -> call_ok c ->
  let w := snd (play fuel l (new_world C)) in
  let y n := lsys_run (repeat (LPoll 0) n) (lsys_start fuel [(i, c, o)] w) in
  (forall n, ~ blocked (y n) 0) /\
  exists r w' n, do_call fuel i c o w = (Datatypes.inl r, w') /\
    l_answer (y n) 0 = Some r /\ ls_reqs (y n) = [] /\
    w_core (ls_world (y n)) = w_core w' /\ forall j, w_handles (ls_world (y n)) j = w_handles w' j.
Proof.
  intros Hf Ht Hev Hl Hn Hu Hc w y. destruct (found_rep _ _ Hf) as [t Hr].
  destruct (play_spec (BB := C) l fuel (new_world C) nobody m t) as (rs & w' & b & t' & E1 & E2 & HI & E4 & E5 & [Hf1 Hf2]); [|done|done|split; unfold with_header; cbn; lia|].
  { apply new_world_inv; [apply base_valid|done]. }
  assert (w = w') as Ew by (unfold w; by rewrite E1). rewrite <- Ew in HI, Hf1, Hf2.
  destruct (api_g_run (BB := C) (usable l) w (s_entries b) t' fuel i c o HI Hu) as (r & Hr' & He);
    [unfold chain_small; unfold with_header in *; lia|unfold with_header in *; lia|done|].
  destruct (run (api_g fuel c) (view w i o)) as [r' s'] eqn:E. cbn in Hr'. subst r'.
  destruct (alone_run i [] _ _ (gl_call fuel c) _ o _ _ E) as (n & pf & o' & w1 & Hy & Hm & Hw); [done|].
  cbn in Hm. subst pf. split; [intros n'; eapply never_blocked; exact Hy|].
  exists r, (commit_view w i s'), n. split; [unfold do_call; by rewrite <-He|].
  unfold y. change (lsys_start fuel [(i, c, o)] w) with (LSys [LTask i (l_api fuel c) o Runs] (map (to_req 0 i) []) w).
  rewrite Hy. split_and!; [done|done|apply Hw|apply Hw].
Qed.
