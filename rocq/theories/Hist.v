(** Histories of calls through any number of handles. *)
From Coq.Strings Require Import Byte.
From Coq Require Import Lia Sorting.Sorted.
From stdpp Require Import prelude gmap.
From Verif Require Import Bytes Codec Model CodecProofs Order Wp Store Tree Iter Read Zip Pure Seq Mut MutDel MutTop Commit Spec OrderProofs Client Abs Api Call Det Reader.

(** The core is valid and represents [m], and the caches of the handles in [good]
    agree with it. *)
Record WInv {BB : Base} (good : nat -> Prop) (w : world) (m : list kvdata) (t : option tree) : Prop := {
  wi_valid : valid (w_core w);
  wi_rep : rep (w_core w) m t;
  wi_ok : forall i, good i -> okh (view w i []) t }.

Lemma okh_fresh C o t : okh (St C ∅ [] o) t.
Proof.
  split.
  - split.
    + intros q e He. cbn in He. by rewrite lookup_empty in He.
    + intros r1 r2 n (e & He & _). cbn in He. by rewrite lookup_empty in He.
  - destruct t as [T|]; [|done]. intros r Hr. unfold hnode. cbn. by rewrite lookup_empty.
Qed.

Lemma new_world_inv {BB : Base} good C m t : valid C -> rep C m t -> WInv good (new_world C) m t.
Proof.
  intros HV Hr. split; [done|done|]. intros i _. apply okh_fresh.
Qed.

(** The other handles keep agreeing with the core when one writes. *)
Lemma hwf_grow C C' ca he o o' : C `prefix_of` C' -> hwf (St C ca he o) -> hwf (St C' ca he o').
Proof.
  intros Hp [H1 H2]. split; [|done]. intros k e He. apply (entry_ok_mono (St C ca he o)); [done|done|by apply H1].
Qed.

Lemma okh_grow C C' ca he o o' m t t' : C `prefix_of` C' -> rep C m t -> okh (St C ca he o) t ->
  (forall T' r, t' = Some T' -> r ∈ refs T' -> (length C <= fst r)%nat \/ exists T, t = Some T /\ r ∈ refs T) ->
  okh (St C' ca he o') t'.
Proof.
  intros Hp Hr [Hw Hc] Hrefs. split; [by eapply hwf_grow|]. destruct t' as [T'|]; [|done]. intros r Hin.
  destruct (Hrefs T' r eq_refl Hin) as [Hl|(T & -> & HT)].
  - unfold hnode. cbn [cache core]. destruct (ca !! fst r) as [e|] eqn:E; [|done].
    destruct Hw as [Hw _]. destruct (Hw (fst r) e E) as (b & Hb & _). apply blk_lt in Hb. cbn in Hb. lia.
  - destruct Hr as (_ & h & HW & _). destruct (wft_in_core _ _ _ _ _ HW HT) as [Hlt _].
    destruct Hp as [k ->]. specialize (Hc r HT). unfold hnode in *. cbn [cache core heap] in *.
    rewrite cnode_app_l by done. by destruct (ca !! fst r).
Qed.

Lemma headed_prefix C : C `prefix_of` headed C.
Proof. destruct C; [apply prefix_nil|done]. Qed.

Lemma effect_prefix c C m t C' t' : effect c C m t C' t' -> C `prefix_of` C'.
Proof.
  pose proof (headed_prefix C) as Hh.
  assert (forall k v, (exists T', t' = Some T' /\ appends (headed C) (put_ghost (headed C) k t) k v C' T') -> C `prefix_of` C') as Hput.
  { intros k v (T & _ & _ & -> & _). by apply prefix_app_r. }
  assert (forall k, (exists T', t' = Some T' /\ appends C (del_ghost C k t) k None C' T') -> C `prefix_of` C') as Hdel.
  { intros k (T & _ & _ & -> & _). by apply prefix_app_r. }
  destruct c as [k|k v|k v f|k|k f| |md|conf]; simpl; try (by intros [-> _]).
  - apply Hput.
  - destruct (f _ _); [apply Hput|]. by intros [-> _].
  - destruct (lookup_key k m); [apply Hdel|]. by intros [-> _].
  - destruct (lookup_key k m) as [e|]; [|by intros [-> _]]. destruct (f e); [apply Hdel|]. by intros [-> _].
  - intros [_ ->]. destruct C; [apply prefix_nil|done].
Qed.

(** [c] took effect. *)
Definition took {BB : Base} (good : nat -> Prop) (c : call) (w w' : world) (m : list kvdata) (t : option tree) : Prop :=
  exists t', effect c (w_core w) m t (w_core w') t' /\
    WInv good w' (s_entries (snd (spec_call c (Store (length (w_core w)) m)))) t' /\
    length (w_core w') = s_blocks (snd (spec_call c (Store (length (w_core w)) m))).
(** [c] was interrupted and did not. *)
Definition stopped {BB : Base} (good : nat -> Prop) (i : nat) (c : call) (o : list fault) (w w' : world) (m : list kvdata) (t : option tree) : Prop :=
  (w_core w' = w_core w \/ w_core w' = headed (w_core w)) /\ (reads_only c -> w_core w' = w_core w) /\
  WInv (fun j => good j /\ (j <> i \/ ~ wrecks c o (Store (length (w_core w)) m))) w' m t.

Lemma settled_took {BB : Base} good c i o w m t s' : WInv good w m t -> settled c (view w i o) m t s' ->
  took good c w (commit_view w i s') m t.
Proof.
  intros HI [(t' & He & Hr & Hok & Hrefs) Hv Hl]. cbn [core view] in *. pose proof (effect_prefix _ _ _ _ _ _ He) as Hp.
  exists t'. split_and!; [done| |done]. split; cbn [w_core commit_view]; [done|done|].
  - intros j Hg. unfold view, commit_view, set_handle. cbn [w_core w_handles]. destruct (Nat.eqb_spec j i) as [->|Hne]; cbn [h_cache h_heap].
    + destruct s'. apply Hok.
    + eapply okh_grow; [exact Hp|apply HI| |done]. apply (wi_ok _ _ _ _ HI j Hg).
Qed.

Lemma broken_stopped {BB : Base} good c i o w m t s' : WInv good w m t -> broken c (view w i o) m s' t ->
  stopped good i c o w (commit_view w i s') m t.
Proof.
  intros HI (Hw & Hc & Hro & Hsp). cbn [core view oracle] in *.
  assert (w_core w `prefix_of` core s') as Hp.
  { destruct Hc as [-> | ->]; [done|apply headed_prefix]. }
  split_and!; [done|done|]. split; cbn [w_core commit_view].
  - destruct Hc as [-> | ->]; [|apply headed_valid]; apply HI.
  - destruct Hc as [-> | ->]; [|apply rep_headed]; apply HI.
  - intros j [Hg Hj]. unfold view, commit_view, set_handle. cbn [w_core w_handles]. destruct (Nat.eqb_spec j i) as [->|Hne]; cbn [h_cache h_heap].
    + destruct s'. destruct Hj as [?|Hj]; [done|]. apply Hsp in Hj. apply Hj.
    + eapply okh_grow; [exact Hp|apply HI|apply (wi_ok _ _ _ _ HI j Hg)|]. intros T' r -> Hr. right. by exists T'.
Qed.

Lemma do_call_spec {BB : Base} good w m t fuel i c o :
  WInv good w m t -> good i -> chain_small (w_core w) -> (length (w_core w) <= fuel)%nat -> call_ok c ->
  exists r w', do_call fuel i c o w = (inl r, w') /\
    ((r = fst (spec_call c (Store (length (w_core w)) m)) /\ took good c w w' m t) \/
     (has_fault o /\ failed_reply (parts (w_core w) t) c o m r /\ (append_fault o \/ w_core w' = w_core w) /\ (took good c w w' m t \/ stopped good i c o w w' m t))).
Proof.
  intros HI Hg Hsm Hf Hc. pose proof (call_spec (view w i o) m t fuel c) as H. cbn [core view oracle] in H.
  specialize (H (wi_valid _ _ _ _ HI) (wi_rep _ _ _ _ HI) (wi_ok _ _ _ _ HI i Hg) Hsm Hf Hc).
  apply rwp_run in H. unfold do_call. destruct (run (api fuel c) (view w i o)) as [[r|x] s'] eqn:E; [|done].
  exists r, (commit_view w i s'). split; [done|]. destruct H as [[H1 H2]|(H1 & H2 & H4 & [H3|H3])].
  - left. split; [done|]. by eapply settled_took.
  - right. split_and!; [done|done|done|]. left. by eapply settled_took.
  - right. split_and!; [done|done|done|]. right. by eapply broken_stopped.
Qed.

Lemma reopen_inv {BB : Base} good i w m t : WInv good w m t -> WInv (fun j => good j \/ j = i) (reopen i w) m t.
Proof.
  intros HI. split; [apply HI|apply HI|].
  - intros j Hj. unfold view, reopen, set_handle. cbn [w_core w_handles]. destruct (Nat.eqb_spec j i) as [->|Hne].
    + apply okh_fresh.
    + destruct Hj as [Hj|?]; [|done]. apply (wi_ok _ _ _ _ HI j Hj).
Qed.

(** ** Whole histories *)
Lemma WInv_weaken {BB : Base} (g1 g2 : nat -> Prop) w m t : (forall i, g2 i -> g1 i) -> WInv g1 w m t -> WInv g2 w m t.
Proof. intros H HI. split; [apply HI..|]. intros i Hg. apply HI. by apply H. Qed.

Lemma spec_call_grow c a : (with_header (s_blocks (snd (spec_call c a))) <= S (with_header (s_blocks a)))%nat.
Proof.
  destruct a as [n m]. unfold with_header. destruct c as [k|k v|k v f|k|k f| |md|conf]; unfold spec_call, spec_put, spec_del, with_header; cbn [s_blocks s_entries]; try (cbn; lia).
  - destruct (f _ _); cbn; lia.
  - destruct (lookup_key k m); cbn; lia.
  - destruct (lookup_key k m) as [e|]; [destruct (f e)|]; cbn; lia.
  - destruct (n =? 0)%nat; cbn; lia.
  - destruct (n <=? 1)%nat; cbn; lia.
Qed.

Definition fits (w : world) (n fuel : nat) : Prop :=
  (with_header (length (w_core w)) + n <= fuel)%nat /\ (N.of_nat (with_header (length (w_core w)) + n) < 2 ^ 50)%N.

Lemma spoils_fault c o : spoils c o -> has_fault o.
Proof. destruct c; cbn; try done; intros H; (eapply Exists_impl; [exact H|]); by intros f [-> | ->]. Qed.
Lemma reads_only_dec c : reads_only c \/ ~ reads_only c.
Proof. destruct c; simpl; tauto. Qed.
Lemma has_fault_dec o : has_fault o \/ ~ has_fault o.
Proof.
  unfold has_fault. induction o as [|f o IH]; [right; by intros ?%Exists_nil|]. rewrite Exists_cons.
  destruct IH as [IH|IH]; [left; by right|]. destruct f; [right; intros [?|?]; done|left; by left..].
Qed.

Lemma rep_blocks C m t e : rep C m t -> e ∈ m -> block_holds C (kv_seq e) (kv_key e) (kv_value e) /\ (1 <= kv_seq e < length C)%nat.
Proof.
  destruct t as [T|]; [|intros [_ ->] ?%elem_of_nil; done]. intros (Hl & h & HW & ->) (k & -> & Hk)%elem_of_list_fmap.
  destruct (wf_keys _ _ _ _ HW k Hk) as [Hv [b Hb]]. rewrite (kd_key _ _ _ Hb). cbn [kv_seq kv_key kv_value]. split; [|lia].
  unfold blk in Hb. destruct (C !! k) as [raw|] eqn:E; [|done]. destruct (decode_block raw) eqn:Ed; try done.
  injection Hb as ->. exists raw, (b_nodes b). split; [done|]. rewrite Ed. by destruct b.
Qed.

Lemma lookup_key_spec k m e : lookup_key k m = Some e -> e ∈ m /\ kv_key e = k.
Proof. unfold lookup_key. intros [H1 H2]%List.find_some. split; [by apply elem_of_list_In|]. by apply bool_decide_eq_true in H2. Qed.

(** ** Interrupted calls *)
Lemma run_step {A} (p : prog A) s : run (fst (step p s)) (snd (step p s)) = run p s.
Proof.
  destruct p as [a|x|k|q k|b k|q k|q e k|nd k|n k|n f k]; cbn; try done.
  - by destruct (exec_get q s).
  - by destruct (exec_append b s).
  - by destruct (heap s !! n).
  - destruct (heap s !! n) as [nd|]; [|done]. by destruct (f nd).
Qed.
Lemma run_run_upto {A} k : forall (p : prog A) s, run (fst (run_upto k p s)) (snd (run_upto k p s)) = run p s.
Proof.
  induction k as [|k IH]; intros p s; [done|]. cbn. rewrite <-(run_step p s). destruct (step p s) as [p' s']. apply IH.
Qed.
Lemma exec_get_core q s : core (snd (exec_get q s)) = core s.
Proof. unfold exec_get. destruct (oracle s) as [|[] ?]; try done; cbn; by destruct (core s !! q). Qed.
Lemma step_grow {A} (p : prog A) s : core s `prefix_of` core (snd (step p s)).
Proof.
  destruct p as [a|x|k|q k|b k|q k|q e k|nd k|n k|n f k]; cbn; try done.
  - rewrite <-(exec_get_core q s). by destruct (exec_get q s).
  - unfold exec_append. destruct (oracle s) as [|[] ?]; cbn; try done; by apply prefix_app_r.
  - by destruct (heap s !! n).
  - destruct (heap s !! n) as [nd|]; [|done]. by destruct (f nd).
Qed.
Lemma run_upto_grow {A} k : forall (p : prog A) s, core s `prefix_of` core (snd (run_upto k p s)).
Proof.
  induction k as [|k IH]; intros p s; [done|]. cbn. pose proof (step_grow p s) as G. destruct (step p s) as [p' s'].
  etrans; [exact G|apply IH].
Qed.
Lemma run_grow {A} (p : prog A) : forall s, core s `prefix_of` core (snd (run p s)).
Proof.
  induction p as [a|x|k IH|q k IH|b k IH|q k IH|q e k IH|nd k IH|n k IH|n f k IH]; intros s; cbn; try done.
  - pose proof (exec_get_core q s) as E. destruct (exec_get q s) as [r s']. cbn in E. rewrite <-E. apply IH.
  - pose proof (step_grow (CoreAppend b k) s) as G. cbn in G. destruct (exec_append b s) as [r s']. cbn in G. etrans; [exact G|apply IH].
  - apply (IH (set_cache s (<[q := e]> (cache s)))).
  - apply (IH (length (heap s)) (set_heap s (heap s ++ [nd]))).
  - destruct (heap s !! n) as [nd|]; [|done]. apply IH.
  - destruct (heap s !! n) as [nd|]; [|done]. destruct (f nd) as [nd'|]; [|done]. apply (IH nd (set_heap s _)).
Qed.

Lemma prefix_between (A B : list bytes) C : A `prefix_of` B -> B `prefix_of` C -> B = take (length B) C.
Proof. intros _ [k ->]. by rewrite take_app. Qed.

(** Wherever a call is interrupted, the core is that of a store before or after
    the call (or with just the header), and the other handles agree with it. *)
Lemma crash_core {BB : Base} g w m t fuel i c o k : WInv g w m t -> g i -> fits w 1 fuel -> call_ok c ->
  let sk := snd (run_upto k (api fuel c) (view w i o)) in
  exists b1, after_failure c (Store (length (w_core w)) m) b1 /\ exists t1, valid (core sk) /\ rep (core sk) (s_entries b1) t1 /\
    length (core sk) = s_blocks b1 /\
    forall j, g j -> j <> i -> okh (St (core sk) (h_cache (w_handles w j)) (h_heap (w_handles w j)) []) t1.
Proof.
  intros HI Hi Hfit Hc. cbn zeta. remember (length (w_core w)) as N eqn:HN. symmetry in HN. set (s := view w i o).
  set (sk := snd (run_upto k (api fuel c) s)).
  destruct Hfit as [Hf1 Hf2].
  destruct (do_call_spec _ _ _ _ fuel i c o HI Hi) as (r & w1 & D1 & Hout);
    [unfold chain_small; unfold with_header in *; lia|unfold with_header in *; lia|done|].
  assert (w_core w `prefix_of` core sk) as P1 by (exact (run_upto_grow k (api fuel c) s)).
  assert (core sk `prefix_of` w_core w1 /\ forall j, j <> i -> w_handles w1 j = w_handles w j) as [P2 P3].
  { pose proof (run_run_upto k (api fuel c) s) as E. fold sk in E.
    unfold do_call in D1. fold s in D1. rewrite <-E in D1. pose proof (run_grow (fst (run_upto k (api fuel c) s)) sk) as G.
    destruct (run _ sk) as [r' s']. injection D1 as _ <-. split; [exact G|]. intros j Hj. cbn. unfold set_handle.
    by apply Nat.eqb_neq in Hj as ->. }
  set (goal := exists b1, after_failure c (Store N m) b1 /\ exists t1, valid (core sk) /\ rep (core sk) (s_entries b1) t1 /\
    length (core sk) = s_blocks b1 /\
    forall j, g j -> j <> i -> okh (St (core sk) (h_cache (w_handles w j)) (h_heap (w_handles w j)) []) t1).
  assert (core sk = w_core w -> goal) as C1.
  { unfold goal. intros ->. exists (Store N m). split; [by left|]. exists t. split_and!; [apply HI|apply HI|done|]. intros j Hj _. by apply (wi_ok _ _ _ _ HI). }
  assert (core sk = headed (w_core w) -> goal) as C2.
  { unfold goal. intros ->. exists (Store (with_header N) m). split; [by right; left|]. exists t.
    split_and!; [apply headed_valid, HI|apply rep_headed, HI|by rewrite headed_length, HN|]. intros j Hj _.
    eapply okh_grow; [apply headed_prefix|apply HI|apply (wi_ok _ _ _ _ HI j Hj)|]. intros T' r0 -> Hr. right. by exists T'. }
  assert (took g c w w1 m t -> goal) as C3.
  { intros (t1 & He & HI1 & Hl1). rewrite HN in *.
    assert (core sk = w_core w1 -> goal) as C3.
    { unfold goal. intros ->. eexists. split; [right; by right|]. exists t1. split_and!; [apply HI1|apply HI1|exact Hl1|].
      intros j Hj Hne. rewrite <-(P3 j Hne). by apply (wi_ok _ _ _ _ HI1). }
    assert (forall raw, w_core w1 = headed (w_core w) ++ [raw] -> goal) as C4.
    { intros raw E. destruct (decide (length (core sk) = length (w_core w1))) as [El|El].
      - apply C3. rewrite (prefix_between _ _ _ P1 P2), El. by rewrite take_ge.
      - pose proof (prefix_length _ _ P2) as L2. pose proof (prefix_length _ _ P1) as L1. rewrite E, app_length in L2, El. cbn [length] in *.
        destruct (decide (length (core sk) = length (headed (w_core w)))) as [Eh|Eh].
        + apply C2. rewrite (prefix_between _ _ _ P1 P2), E, Eh. by rewrite take_app.
        + apply C1. destruct (w_core w) as [|a C] eqn:EC; cbn [headed length] in *; [|lia].
          assert (length (core sk) = 0) as E0 by lia. by apply nil_length_inv in E0. }
    assert (w_core w1 = w_core w -> goal) as C5.
    { intros E. apply C1. rewrite E in P2. destruct P1 as [x1 X1], P2 as [x2 X2]. rewrite X1 in X2.
      assert (length (w_core w) = length ((w_core w ++ x1) ++ x2)) as EL by (by rewrite <-X2). rewrite !app_length in EL.
      assert (length x1 = 0) as E0 by lia. apply nil_length_inv in E0. by rewrite X1, E0, app_nil_r. }
    assert (w_core w1 = headed (w_core w) -> goal) as C6.
    { intros E. destruct (w_core w) as [|a C] eqn:EC; [|by apply C5]. cbn [headed] in *. rewrite E in P2.
      destruct (core sk) as [|a C] eqn:Es; [by apply C1|]. apply C2. destruct P2 as [x X]. injection X as <- X. by destruct C. }
    unfold effect in He. destruct c as [k0|k0 v|k0 v f|k0|k0 f| |md|conf]; try (by apply C5; apply He).
    - destruct He as (T' & _ & _ & E & _). by eapply C4.
    - destruct (f _ _); [|by apply C6; apply He]. destruct He as (T' & _ & _ & E & _). by eapply C4.
    - destruct (lookup_key k0 m) eqn:Ek; [|by apply C5; apply He]. destruct He as (T' & _ & _ & E & _). eapply C4. rewrite headed_some; [exact E|].
      apply lookup_key_spec in Ek as [Ek _]. destruct (rep_blocks _ _ _ _ (wi_rep _ _ _ _ HI) Ek). lia.
    - destruct (lookup_key k0 m) as [e|] eqn:Ek; [|by apply C5; apply He]. destruct (f e); [|by apply C5; apply He].
      destruct He as (T' & _ & _ & E & _). eapply C4. rewrite headed_some; [exact E|].
      apply lookup_key_spec in Ek as [Ek _]. destruct (rep_blocks _ _ _ _ (wi_rep _ _ _ _ HI) Ek). lia.
    - destruct He as [_ E]. destruct (w_core w) as [|a C] eqn:EC; [|by apply C5].
      destruct (core sk) as [|a' C'] eqn:Es; [by apply C1|]. apply C3. rewrite E in P2 |- *. destruct P2 as [x X]. injection X as <- X. by destruct C'. }
  destruct Hout as [[_ Ht]|(_ & _ & _ & [Ht|([E|E] & _ & _)])]; [by eapply C3|by eapply C3| |].
  - apply C1. rewrite E in P2. destruct P1 as [x1 X1], P2 as [x2 X2]. rewrite X1 in X2.
    assert (length (w_core w) = length ((w_core w ++ x1) ++ x2)) as EL by (by rewrite <-X2). rewrite !app_length in EL.
    assert (length x1 = 0) as E0 by lia. apply nil_length_inv in E0. by rewrite X1, E0, app_nil_r.
  - rewrite E in P2. destruct (w_core w) as [|a C] eqn:EC.
    + cbn [headed] in *. destruct (core sk) as [|a C] eqn:Es; [by apply C1|]. apply C2. destruct P2 as [x X]. injection X as <- X. by destruct C.
    + cbn [headed] in *. apply C1. destruct P1 as [x1 X1], P2 as [x2 X2]. rewrite X1 in X2.
      assert (length (a :: C) = length (((a :: C) ++ x1) ++ x2)) as EL by (by rewrite <-X2). rewrite !app_length in EL.
      assert (length x1 = 0) as E0 by lia. apply nil_length_inv in E0. by rewrite X1, E0, app_nil_r.
Qed.


(** Reading tasks keep what they find, at every moment. *)
Lemma tasks_inv {BB : Base} good w m t fuel xs sched : WInv good w m t -> (length (w_core w) <= fuel)%nat ->
  Forall (fun x => reads_only (snd (fst x)) /\ call_ok (snd (fst x)) /\ good (fst (fst x))) xs ->
  let w' := snd (tasks_run sched (map (task fuel) xs) w) in w_core w' = w_core w /\ WInv good w' m t.
Proof.
  intros HI Hf Hxs. cbn zeta.
  (* the state of the tasks *)
  set (good_task := fun (x : nat * call * list fault) (th : thread) (w' : world) =>
    th_handle th = fst (fst x) /\
    (th = task fuel x \/ rwp cext cown (th_prog th) (reader_post (snd (fst x)) (snd x) (Store (length (w_core w)) m)) (fun _ _ => False) (view w' (th_handle th) (th_faults th)))).
  assert (forall ts w', apart ts w' -> w_core w' = w_core w -> (forall i, good i -> cext (view w i []) (view w' i []) /\ unshared (view w' i [])) ->
    Forall2 (fun x th => good_task x th w') xs ts ->
    let w2 := snd (tasks_run sched ts w') in w_core w2 = w_core w /\ forall i, good i -> cext (view w i []) (view w2 i []) /\ unshared (view w2 i [])) as Hgo.
  { induction sched as [|j sched IH]; intros ts w' Ha Hc Hg Hts; cbn [tasks_run]; [done|].
    destruct (ts !! j) as [th|] eqn:Ej; [|by apply IH].
    destruct (Forall2_lookup_r _ _ _ _ _ Hts Ej) as ([[i c] o] & Ex & Hi & Hth). cbn [fst snd] in *.
    assert (reads_only c /\ call_ok c /\ good i) as (Hro & Hok & Hgi). { rewrite Forall_forall in Hxs. apply (Hxs (i, c, o)). by eapply elem_of_list_lookup_2. }
    pose proof (okh_rdy _ _ (wi_ok _ _ _ _ HI i Hgi)) as Hrd.
    assert (cwf (view w' i [])) as Hcwf. { apply (cx_cwf _ _ (proj1 (Hg i Hgi))), Hrd. }
    destruct (thread_step th w') as [th' w2] eqn:Et. pose proof (apart_step _ _ _ _ _ _ Ha Ej ltac:(by rewrite Hi) Et) as Ha2.
    assert (exists p s, step (th_prog th) (view w' i (th_faults th)) = (p, s) /\ cown (view w' i (th_faults th)) s /\
      rwp cext cown p (reader_post c o (Store (length (w_core w)) m)) (fun _ _ => False) s) as (p & s & Es & [Hx Hcs] & Hp).
    { destruct Hth as [->|Hth].
      - cbn [task th_prog th_faults]. set (s := view w' i o).
        exists (started (length (core s)) (api fuel c)), s. split_and!; [by destruct c|split; [apply cext_refl|done]|].
        assert (core s = w_core w) as Ecs by exact Hc. rewrite <-Ecs.
        apply (reader_started s m t fuel c); [done|done|rewrite Ecs; apply HI| |by rewrite Ecs].
        eapply (rdy_cext s m t (w_core w) (h_cache (w_handles w i)) (h_heap (w_handles w i)) o [] ).
        + exact (cext_set_oracle _ _ o (proj1 (Hg i Hgi))).
        + apply Hrd.
        + rewrite Ecs. apply HI.
        + rewrite Ecs. exact Hrd.
      - rewrite Hi in Hth. destruct (rwp_step _ _ _ Hth) as [H1 H2]. destruct (step (th_prog th) (view w' i (th_faults th))) as [p s]. by exists p, s. }
    unfold thread_step in Et. rewrite Hi, Es in Et. injection Et as <- <-. apply IH.
    - done.
    - cbn. rewrite Hcs. done.
    - intros i' Hgi'. destruct (Hg i' Hgi') as [G1 G2]. split; [eapply cext_trans; [exact G1|]; by eapply cext_commit|].
      destruct (decide (i' = i)) as [->|Hne].
      + destruct Ha2 as (O & HO & _). destruct (HO j (Thread i p (oracle s))) as (_ & HO2 & _); [|exact HO2].
        apply list_lookup_insert. by eapply lookup_lt_Some.
      + rewrite view_commit. apply Nat.eqb_neq in Hne as ->. exact G2.
    - apply Forall2_same_length_lookup. split; [rewrite insert_length; by eapply Forall2_length|].
      intros k x tk Hx1 Hx2. apply list_lookup_insert_Some in Hx2 as [(<- & <- & _)|[Hne Hx2]].
      + rewrite Ex in Hx1. injection Hx1 as <-. split; [done|]. right. cbn [th_prog th_handle th_faults]. rewrite view_commit, Nat.eqb_refl. by destruct s.
      + destruct (Forall2_lookup_lr _ _ _ _ _ _ Hts Hx1 Hx2) as [K1 K2]. split; [done|]. destruct K2 as [K2|K2]; [by left|right].
        eapply rwp_env_step; [|exact K2]. by eapply cext_commit. }
  destruct (Hgo (map (task fuel) xs) w) as [H1 H2].
  - apply apart_start. eapply Forall_impl; [exact Hxs|]. intros x (? & _ & Hg). split; [done|]. exact (proj2 (proj1 (wi_ok _ _ _ _ HI _ Hg))).
  - done.
  - intros i Hg. split; [apply cext_refl|]. exact (proj2 (proj1 (wi_ok _ _ _ _ HI i Hg))).
  - apply Forall2_fmap_r, Forall_Forall2_diag, Forall_forall. intros [[i c] o] _. split; [done|by left].
  - split; [done|]. split; [rewrite H1; apply HI|rewrite H1; apply HI|]. intros i Hg. destruct (H2 i Hg) as [K1 K2].
    pose proof (wi_ok _ _ _ _ HI i Hg) as Hok.
    assert (rdy (view (snd (tasks_run sched (map (task fuel) xs) w)) i []) t) as [Hr1 Hr2].
    { eapply (rdy_cext _ m t (w_core w) _ _ [] []); [exact K1|apply Hok|cbn [core view]; rewrite H1; apply HI|]. cbn [core view]. rewrite H1. by apply okh_rdy. }
    split; [by split|done].
Qed.

(** A call given up after [k] steps is a task that makes [k] steps. *)
Lemma drop_task fuel x k w : let '(i, c, o) := x in
  let w1 := commit_view w i (snd (run_upto k (api fuel c) (view w i o))) in
  let w2 := snd (tasks_run (repeat 0 k) [task fuel x] w) in
  w_core w1 = w_core w2 /\ forall j, w_handles w1 j = w_handles w2 j.
Proof.
  destruct x as [[i c] o]. cbn zeta. cbn [task]. generalize (api fuel c) as p. intros p. revert p o w.
  assert (forall k p s w, snd (run_upto k p s) = snd (run_upto k p s) -> 
    (forall j, w_handles (commit_view w i s) j = w_handles w j) -> core s = w_core w ->
    w_core (commit_view w i (snd (run_upto k p s))) = w_core (snd (tasks_run (repeat 0 k) [Thread i p (oracle s)] w)) /\
    forall j, w_handles (commit_view w i (snd (run_upto k p s))) j = w_handles (snd (tasks_run (repeat 0 k) [Thread i p (oracle s)] w)) j) as H.
  { clear k. induction k as [|k IH]; intros p s w _ Hh Hc; [done|]. cbn [run_upto repeat tasks_run lookup list_lookup].
    unfold thread_step. cbn [th_prog th_handle th_faults].
    assert (view w i (oracle s) = s) as ->.
    { unfold view. rewrite <-Hc, <-(Hh i). cbn. unfold set_handle. rewrite Nat.eqb_refl. by destruct s. }
    destruct (step p s) as [p' s']. cbn [insert list_insert].
    destruct (IH p' s' (commit_view w i s')) as [H1 H2]; [done| |done|].
    - intros j. cbn. unfold set_handle. by destruct (j =? i)%nat.
    - split; [exact H1|]. intros j. rewrite <-(H2 j). cbn. unfold set_handle. by destruct (j =? i)%nat. }
  intros p o w. apply (H k p (view w i o) w); [done| |done]. intros j. cbn. unfold set_handle.
  destruct (Nat.eqb_spec j i) as [->|]; [|done]. by destruct (w_handles w i).
Qed.
Lemma WInv_same {BB : Base} good w w' m t : w_core w' = w_core w -> (forall j, w_handles w' j = w_handles w j) -> WInv good w m t -> WInv good w' m t.
Proof.
  intros Hc Hh HI. split; [rewrite Hc; apply HI|rewrite Hc; apply HI|]. intros i Hg. unfold view. rewrite Hc, Hh. by apply (wi_ok _ _ _ _ HI).
Qed.

(** A call given up. *)
Lemma drop_spec {BB : Base} good w m t fuel i c o k : WInv good w m t -> good i -> fits w 1 fuel -> call_ok c ->
  let w' := commit_view w i (snd (run_upto k (api fuel c) (view w i o))) in
  exists b1, after_failure c (Store (length (w_core w)) m) b1 /\ (reads_only c -> b1 = Store (length (w_core w)) m /\ w_core w' = w_core w) /\
    exists t1, length (w_core w') = s_blocks b1 /\ WInv (fun j => good j /\ (j <> i \/ reads_only c)) w' (s_entries b1) t1.
Proof.
  intros HI Hi Hfit Hc. cbn zeta. destruct (reads_only_dec c) as [Hro|Hro].
  - exists (Store (length (w_core w)) m). pose proof (drop_task fuel (i, c, o) k w) as [D1 D2]. cbn zeta in *.
    destruct (tasks_inv good w m t fuel [(i, c, o)] (repeat 0 k) HI) as [T1 T2].
    { destruct Hfit as [Hf _]. unfold with_header in Hf. lia. }
    { constructor; [done|constructor]. }
    cbn zeta in *. cbn [map] in *. split_and!; [by left|intros _; split; [done|by rewrite D1, T1]|]. exists t.
    split; [rewrite D1, T1; done|]. eapply WInv_same; [exact D1|exact D2|]. eapply WInv_weaken; [|exact T2]. by intros j [? _].
  - destruct (crash_core good w m t fuel i c o k HI Hi Hfit Hc) as (b1 & Ha & t1 & Hv & Hr & Hl & Hj). exists b1. split_and!; [done|done|].
    exists t1. split; [done|]. split; [done|done|]. intros j [Hg [Hne|?]]; [|done]. unfold view, commit_view, set_handle. cbn [w_core w_handles].
    pose proof Hne as Hne'. apply Nat.eqb_neq in Hne' as ->. by apply Hj.
Qed.
