(** Polling the stream to its end gives what [trav] gives. *)
From Coq.Strings Require Import Byte.
From stdpp Require Import prelude gmap.
From Verif Require Import Bytes Codec Model Wp Spec Client Poll.

(** ** Wake-ups *)
Fixpoint wakes conf n (t : traverse) : forall s o w t' s',
  poll_next conf n t s = (o, w, t', s') -> o = OPending \/ o = OEnd -> w = true.
Proof.
  intros s o w t' s' H Ho.
  destruct t as [root cf counts itf iter key child stream]. cbn [poll_next] in H.
  destruct key as [kf|].
  { destruct (poll_fut n kf s) as [[[[kv|e]| |] f'] s1]; [|by naive_solver..].
    destruct (in_bounds conf (kv_key kv)); by naive_solver. }
  destruct child as [chf|].
  { destruct (poll_fut n chf s) as [[[[c|e]| |] f'] s1]; by naive_solver. }
  destruct stream as [c|].
  { destruct (poll_next conf n c s) as [[[o1 w1] c'] s1] eqn:Hp.
    pose proof (wakes conf n c s o1 w1 c' s1 Hp) as Hw. destruct o1; injection H as <- <- <- <-; by naive_solver. }
  destruct counts as [[nk nc]|].
  - destruct iter as [[|i it]|].
    + by naive_solver.
    + destruct (Nat.even i); by naive_solver.
    + destruct itf as [f0|]; [|by naive_solver].
      destruct (poll_fut n f0 s) as [[[[c|e]| |] f'] s1]; by naive_solver.
  - destruct cf as [f0|]; [|by naive_solver].
    destruct (poll_fut n f0 s) as [[[[c|e]| |] f'] s1]; by naive_solver.
Qed.

(** ** A program in pieces *)
Lemma run_upto_run {A} n : forall (p : prog A) s, run p s = run (fst (run_upto n p s)) (snd (run_upto n p s)).
Proof.
  induction n as [|n IH]; intros p s; [done|]. cbn [run_upto].
  transitivity (run (fst (step p s)) (snd (step p s))).
  - destruct p; simpl; try done.
    + by destruct (exec_get seq s).
    + by destruct (exec_append b s).
    + by destruct (heap s !! n0).
    + destruct (heap s !! n0) as [nd|]; [|done]. by destruct (f nd).
  - destruct (step p s) as [p' s']. simpl. apply IH.
Qed.

Section poll.
  Context (conf : config) (sched : nat -> nat) (Hfair : fair sched).

  (** Some polls, beginning with number [j], none of which ends the stream. *)
  Inductive reach : nat -> traverse -> st -> list (item * nid) -> nat -> traverse -> st -> Prop :=
  | reach_nil j t s : reach j t s [] j t s
  | reach_pending j t s t1 s1 its j' t' s' :
      poll_next conf (sched j) t s = (OPending, true, t1, s1) ->
      reach (S j) t1 s1 its j' t' s' -> reach j t s its j' t' s'
  | reach_item j t s x w t1 s1 its j' t' s' :
      poll_next conf (sched j) t s = (OItem x, w, t1, s1) ->
      reach (S j) t1 s1 its j' t' s' -> reach j t s (x :: its) j' t' s'.

  Lemma reach_trans j t s its j1 t1 s1 its' j2 t2 s2 :
    reach j t s its j1 t1 s1 -> reach j1 t1 s1 its' j2 t2 s2 -> reach j t s (its ++ its') j2 t2 s2.
  Proof. induction 1; intros H2; [done|..]; simpl; [eapply reach_pending|eapply reach_item]; eauto. Qed.
  Lemma reach_one j t s t1 s1 : poll_next conf (sched j) t s = (OPending, true, t1, s1) -> reach j t s [] (S j) t1 s1.
  Proof. intros H. eapply reach_pending; [done|constructor]. Qed.
  Lemma reach_one_item j t s x w t1 s1 : poll_next conf (sched j) t s = (OItem x, w, t1, s1) -> reach j t s [x] (S j) t1 s1.
  Proof. intros H. eapply reach_item; [done|constructor]. Qed.

  (** A future becomes ready. *)
  Definition answer_of {A} (r : A + stop) : option (A + err) :=
    match r with inl a => Some (inl a) | inr (SErr e) => Some (inr e) | inr _ => None end.

  Definition future_ready {A} (p : prog A) : Prop :=
    forall (ctx : fut A -> traverse),
    (forall n p s f s', poll_fut n (Running p) s = (Pending, f, s') ->
       poll_next conf n (ctx (Running p)) s = (OPending, true, ctx f, s')) ->
    forall s r s' a j, run p s = (r, s') -> answer_of r = Some a ->
    exists j' p' s1, reach j (ctx (Running p)) s [] j' (ctx (Running p')) s1 /\
      poll_fut (sched j') (Running p') s1 = (Ready a, Finished, s').

  Definition finished {A} (p : prog A) : bool := match p with Ret _ | Stop _ => true | _ => false end.
  Lemma poll_running {A} n (p : prog A) s : finished (fst (run_upto n p s)) = false ->
    poll_fut n (Running p) s = (Pending, Running (fst (run_upto n p s)), snd (run_upto n p s)).
  Proof. unfold poll_fut. destruct (run_upto n p s) as [p' s']. simpl. by destruct p'. Qed.
  Lemma poll_finished {A} n (p : prog A) s r s' a : finished (fst (run_upto n p s)) = true ->
    run p s = (r, s') -> answer_of r = Some a -> poll_fut n (Running p) s = (Ready a, Finished, s').
  Proof.
    rewrite (run_upto_run n p s). unfold poll_fut. destruct (run_upto n p s) as [p' s1]. simpl.
    destruct p' as [x|x| | | | | | | |]; try done; simpl.
    - intros _ [= <- <-] [= <-]. done.
    - intros _ [= <- <-]. destruct x; simpl; [|done..]. by intros [= <-].
  Qed.
  Lemma run_upto_finished {A} n (p : prog A) s : finished p = true -> run_upto n p s = (p, s).
  Proof. intros H. induction n as [|n IH]; [done|]. cbn [run_upto]. destruct p; try done. Qed.

  Lemma future_step {A} (p : prog A) :
    (forall n s, future_ready (fst (run_upto n (fst (step p s)) (snd (step p s))))) -> future_ready p.
  Proof.
    intros IH ctx Hctx s r s' a j Hrun Ha.
    destruct (Hfair j) as (j1 & Hj & Hpos).
    assert (Hgo : forall d j0, (j1 - j0 = d)%nat -> (j0 <= j1)%nat ->
      exists j' p' s1, reach j0 (ctx (Running p)) s [] j' (ctx (Running p')) s1 /\
        poll_fut (sched j') (Running p') s1 = (Ready a, Finished, s')); [|by eapply Hgo].
    induction d as [|d IHd]; intros j0 Hd Hle.
    - assert (j0 = j1) as -> by lia.
      destruct (finished (fst (run_upto (sched j1) p s))) eqn:Hfin.
      + exists j1, p, s. split; [constructor|]. by eapply poll_finished.
      + pose proof (poll_running _ p s Hfin) as Hp.
        pose proof (Hctx _ _ _ _ _ Hp) as Hstep.
        destruct (sched j1) as [|n] eqn:Hn; [lia|].
        assert (Hfut : future_ready (fst (run_upto (S n) p s))).
        { cbn [run_upto]. specialize (IH n s). destruct (step p s). exact IH. }
        rewrite (run_upto_run (S n) p s) in Hrun.
        destruct (Hfut ctx Hctx _ _ _ a (S j1) Hrun Ha) as (j' & p' & s1 & Hr & Hf).
        exists j', p', s1. split; [|done]. eapply reach_pending; [|exact Hr]. rewrite Hn. exact Hstep.
    - destruct (finished (fst (run_upto (sched j0) p s))) eqn:Hfin.
      + exists j0, p, s. split; [constructor|]. by eapply poll_finished.
      + pose proof (poll_running _ p s Hfin) as Hp.
        pose proof (Hctx _ _ _ _ _ Hp) as Hstep.
        destruct (sched j0) as [|n] eqn:Hn.
        * destruct (IHd (S j0)) as (j' & p' & s1 & Hr & Hf); [lia|lia|].
          exists j', p', s1. split; [|done]. eapply reach_pending; [|exact Hr]. rewrite Hn. exact Hstep.
        * assert (Hfut : future_ready (fst (run_upto (S n) p s))).
          { cbn [run_upto]. specialize (IH n s). destruct (step p s). exact IH. }
          rewrite (run_upto_run (S n) p s) in Hrun.
          destruct (Hfut ctx Hctx _ _ _ a (S j0) Hrun Ha) as (j' & p' & s1 & Hr & Hf).
          exists j', p', s1. split; [|done]. eapply reach_pending; [|exact Hr]. rewrite Hn. exact Hstep.
  Qed.

  Lemma future_done {A} (p : prog A) : finished p = true -> future_ready p.
  Proof.
    intros Hfin ctx Hctx s r s' a j Hrun Ha. exists j, p, s. split; [constructor|].
    eapply poll_finished; [|done|done]. by rewrite run_upto_finished.
  Qed.

  Lemma futures_ready {A} (p : prog A) : forall n s, future_ready (fst (run_upto n p s)).
  Proof.
    induction p as [a|x|k IH|q k IH|b k IH|q k IH|q e k IH|nd k IH|m k IH|m f k IH]; intros n s.
    1,2: rewrite run_upto_finished by done; by apply future_done.
    all: match goal with |- future_ready (fst (run_upto _ ?p _)) =>
      assert (Hstep : forall n s, future_ready (fst (run_upto n (fst (step p s)) (snd (step p s))))) end.
    all: try (destruct n as [|n]; [by apply future_step|]; cbn [run_upto];
      match goal with |- context [step ?p ?s] => specialize (Hstep n s); destruct (step p s); exact Hstep end).
    all: intros n' s'; simpl.
    - apply IH.
    - destruct (exec_get q s'). apply IH.
    - destruct (exec_append b s'). apply IH.
    - apply IH.
    - apply IH.
    - apply IH.
    - destruct (heap s' !! m); [apply IH|]. rewrite run_upto_finished by done. by apply future_done.
    - destruct (heap s' !! m) as [nd|]; [|rewrite run_upto_finished by done; by apply future_done].
      destruct (f nd); [apply IH|]. rewrite run_upto_finished by done. by apply future_done.
  Qed.
  Lemma all_futures {A} (p : prog A) : future_ready p.
  Proof. apply (futures_ready p 0 (St [] ∅ [] [])). Qed.

  (** The parent of a stream. *)
  Definition above root cf c itf it (stream : traverse) : traverse := Traverse root cf (Some c) itf (Some it) None None (Some stream).
  Definition between root cf c itf it : traverse := Traverse root cf (Some c) itf (Some it) None None None.

  Lemma reach_above root cf c itf it j t s its j' t' s' :
    reach j t s its j' t' s' -> reach j (above root cf c itf it t) s its j' (above root cf c itf it t') s'.
  Proof.
    induction 1 as [|j t s t1 s1 its j' t' s' Hp _ IH|j t s x w t1 s1 its j' t' s' Hp _ IH]; [constructor|..].
    - eapply reach_pending; [|exact IH]. unfold above. cbn [poll_next]. by rewrite Hp.
    - eapply reach_item; [|exact IH]. unfold above. cbn [poll_next]. by rewrite Hp.
  Qed.

  (** The stream [t] yields [its] and then ends, or panics if [b]. *)
  Definition yields (j : nat) (t : traverse) (s : st) (its : list (item * nid)) (b : bool) (s' : st) : Prop :=
    exists j' t1 s1 t2 w, reach j t s its j' t1 s1 /\
      poll_next conf (sched j') t1 s1 = ((if b then OPanic else OEnd), w, t2, s').

  Lemma yields_app j t s its j1 t1 s1 its' b s' :
    reach j t s its j1 t1 s1 -> yields j1 t1 s1 its' b s' -> yields j t s (its ++ its') b s'.
  Proof. intros H (j' & t2 & s2 & t3 & w & H1 & H2). exists j', t2, s2, t3, w. split; [by eapply reach_trans|done]. Qed.

  Lemma yields_loop rec n cf c itf :
    (forall m s its b s', run (rec m) s = (inl (its, b), s') -> forall j, yields j (new_traverse m) s its b s') ->
    forall idxs s its b s', run (trav_loop rec conf n idxs) s = (inl (its, b), s') ->
    forall j, yields j (between n cf c itf idxs) s its b s'.
  Proof.
    intros Hrec. destruct c as [nk nc].
    induction idxs as [|i idxs IH]; intros s its b s' Hrun j; cbn [trav_loop] in Hrun.
    - injection Hrun as <- <- <-. eexists j, _, s, _, true. split; [constructor|done].
    - destruct (Nat.even i) eqn:Heven.
      + rewrite run_bind, run_catch in Hrun.
        set (ctx := fun f => Traverse n cf (Some (nk, nc)) itf (Some idxs) None (Some f) None).
        assert (Hctx : forall k p s f s', poll_fut k (Running p) s = (Pending, f, s') ->
          poll_next conf k (ctx (Running p)) s = (OPending, true, ctx f, s')).
        { intros k p s0 f s0' Hp. unfold ctx. cbn [poll_next]. by rewrite Hp. }
        assert (H0 : poll_next conf (sched j) (between n cf (nk, nc) itf (i :: idxs)) s = (OPending, true, ctx (Running (get_child n (Nat.div2 i))), s)).
        { unfold between. cbn [poll_next]. by rewrite Heven. }
        destruct (run (get_child n (Nat.div2 i)) s) as [r s1] eqn:Hg.
        assert (Hans : exists a, answer_of r = Some a) by (destruct r as [x|[e| |]]; [by eexists|by eexists|done|done]).
        destruct Hans as [a Ha].
        destruct (all_futures _ ctx Hctx s r s1 a (S j) Hg Ha) as (j1 & p1 & s2 & Hr & Hp).
        assert (Hreach : reach j (between n cf (nk, nc) itf (i :: idxs)) s [] j1 (ctx (Running p1)) s2) by (by eapply reach_pending).
        destruct r as [m|[e| |]]; [| |done|done]; injection Ha as <-.
        * rewrite run_bind in Hrun. destruct (run (rec m) s1) as [[[its1 b1]|x] s3] eqn:Hm; [|done].
          assert (H1 : poll_next conf (sched j1) (ctx (Running p1)) s2 = (OPending, true, above n cf (nk, nc) itf idxs (new_traverse m), s1)).
          { unfold ctx. cbn [poll_next]. by rewrite Hp. }
          destruct (Hrec m s1 its1 b1 s3 Hm (S j1)) as (j2 & t2 & s4 & t3 & w & Hr2 & Hend).
          apply (reach_above n cf (nk, nc) itf idxs) in Hr2.
          assert (Hreach2 : reach j (between n cf (nk, nc) itf (i :: idxs)) s its1 j2 (above n cf (nk, nc) itf idxs t2) s4).
          { apply (reach_trans _ _ _ [] _ _ _ its1 _ _ _ Hreach). by eapply reach_pending. }
          destruct b1.
          -- injection Hrun as <- <- <-. eexists j2, _, s4, _, _. split; [exact Hreach2|].
             unfold above. cbn [poll_next]. by rewrite Hend.
          -- rewrite run_bind in Hrun. destruct (run (trav_loop rec conf n idxs) s3) as [[[its2 b2]|x] s5] eqn:Hl; [|done].
             injection Hrun as <- <- <-. eapply yields_app; [exact Hreach2|].
             change its2 with ([] ++ its2). eapply yields_app; [|by eapply IH].
             apply reach_one. unfold above. cbn [poll_next]. rewrite Hend.
             assert (w = true) as -> by (eapply wakes; [exact Hend|by right]). done.
        * rewrite run_bind in Hrun. destruct (run (trav_loop rec conf n idxs) s1) as [[[its2 b2]|x] s5] eqn:Hl; [|done].
          injection Hrun as <- <- <-. change ((IErr (EGetChildInTraverse e), n) :: its2) with ([] ++ [(IErr (EGetChildInTraverse e), n)] ++ its2).
          eapply yields_app; [exact Hreach|]. eapply yields_app; [|by eapply IH].
          eapply reach_one_item. unfold ctx. cbn [poll_next]. by rewrite Hp.
      + rewrite run_bind, run_catch in Hrun.
        set (ctx := fun f => Traverse n cf (Some (nk, nc)) itf (Some idxs) (Some f) None None).
        assert (Hctx : forall k p s f s', poll_fut k (Running p) s = (Pending, f, s') ->
          poll_next conf k (ctx (Running p)) s = (OPending, true, ctx f, s')).
        { intros k p s0 f s0' Hp. unfold ctx. cbn [poll_next]. by rewrite Hp. }
        assert (H0 : poll_next conf (sched j) (between n cf (nk, nc) itf (i :: idxs)) s = (OPending, true, ctx (Running (get_key_value n (Nat.div2 i))), s)).
        { unfold between. cbn [poll_next]. by rewrite Heven. }
        destruct (run (get_key_value n (Nat.div2 i)) s) as [r s1] eqn:Hg.
        assert (Hans : exists a, answer_of r = Some a) by (destruct r as [x|[e| |]]; [by eexists|by eexists|done|done]).
        destruct Hans as [a Ha].
        destruct (all_futures _ ctx Hctx s r s1 a (S j) Hg Ha) as (j1 & p1 & s2 & Hr & Hp).
        assert (Hreach : reach j (between n cf (nk, nc) itf (i :: idxs)) s [] j1 (ctx (Running p1)) s2) by (by eapply reach_pending).
        destruct r as [kv|[e| |]]; [| |done|done]; injection Ha as <-.
        * destruct (in_bounds conf (kv_key kv)) eqn:Hb.
          -- rewrite run_bind in Hrun. destruct (run (trav_loop rec conf n idxs) s1) as [[[its2 b2]|x] s5] eqn:Hl; [|done].
             injection Hrun as <- <- <-. change ((IOk kv, n) :: its2) with ([] ++ [(IOk kv, n)] ++ its2).
             eapply yields_app; [exact Hreach|]. eapply yields_app; [|by eapply IH].
             eapply reach_one_item. unfold ctx. cbn [poll_next]. rewrite Hp. by rewrite Hb.
          -- injection Hrun as <- <- <-. eexists j1, _, s2, _, _. split; [exact Hreach|].
             unfold ctx. cbn [poll_next]. rewrite Hp. by rewrite Hb.
        * rewrite run_bind in Hrun. destruct (run (trav_loop rec conf n idxs) s1) as [[[its2 b2]|x] s5] eqn:Hl; [|done].
          injection Hrun as <- <- <-. change ((IErr e, n) :: its2) with ([] ++ [(IErr e, n)] ++ its2).
          eapply yields_app; [exact Hreach|]. eapply yields_app; [|by eapply IH].
          eapply reach_one_item. unfold ctx. cbn [poll_next]. by rewrite Hp.
  Qed.

  Lemma yields_trav fuel : forall n s its b s', run (trav fuel conf n) s = (inl (its, b), s') ->
    forall j, yields j (new_traverse n) s its b s'.
  Proof.
    induction fuel as [|fuel IH]; intros n s its b s' Hrun j; [done|]. cbn [trav] in Hrun.
    assert (Hcounts : run (get_counts n) s = match heap s !! n with Some nd => (inl (length (n_keys nd), length (n_children nd)), s) | None => (inr SPanic, s) end).
    { unfold get_counts, num_keys, num_children, node_get. simpl. by destruct (heap s !! n) as [nd|] eqn:Hn; simpl; [try rewrite Hn|]. }
    assert (Hnk : run (num_keys n) s = match heap s !! n with Some nd => (inl (length (n_keys nd)), s) | None => (inr SPanic, s) end).
    { unfold num_keys, node_get. simpl. by destruct (heap s !! n). }
    assert (Hnc : run (num_children n) s = match heap s !! n with Some nd => (inl (length (n_children nd)), s) | None => (inr SPanic, s) end).
    { unfold num_children, node_get. simpl. by destruct (heap s !! n). }
    rewrite run_bind, Hnk in Hrun. destruct (heap s !! n) as [nd|]; [|done]. cbv iota beta in Hrun.
    rewrite run_bind, Hnc in Hrun. cbv iota beta in Hrun.
    set (nk := length (n_keys nd)) in *. set (nc := length (n_children nd)) in *.
    set (ctx1 := fun f => Traverse n (Some f) None None None None None None).
    assert (Hctx1 : forall k p s f s', poll_fut k (Running p) s = (Pending, f, s') ->
      poll_next conf k (ctx1 (Running p)) s = (OPending, true, ctx1 f, s')).
    { intros k p s0 f s0' Hp. unfold ctx1. cbn [poll_next]. by rewrite Hp. }
    destruct (all_futures _ ctx1 Hctx1 s _ _ (inl (nk, nc)) (S j) Hcounts eq_refl) as (j1 & p1 & s1 & Hr1 & Hp1).
    set (ctx2 := fun f => Traverse n (Some Finished) (Some (nk, nc)) (Some f) None None None None).
    assert (Hctx2 : forall k p s f s', poll_fut k (Running p) s = (Pending, f, s') ->
      poll_next conf k (ctx2 (Running p)) s = (OPending, true, ctx2 f, s')).
    { intros k p s0 f s0' Hp. unfold ctx2. cbn [poll_next]. by rewrite Hp. }
    assert (Hreach1 : reach j (new_traverse n) s [] (S (S j1)) (ctx2 (Running (make_iter conf n nk nc))) s).
    { eapply reach_pending; [done|]. fold (ctx1 (Running (get_counts n))).
      apply (reach_trans _ _ _ [] _ _ _ [] _ _ _ Hr1).
      eapply reach_pending; [unfold ctx1; cbn [poll_next]; by rewrite Hp1|]. eapply reach_one. done. }
    rewrite run_bind, run_catch in Hrun.
    destruct (run (make_iter conf n nk nc) s) as [r s2] eqn:Hit.
    assert (Hans : exists a, answer_of r = Some a) by (destruct r as [x|[e| |]]; [by eexists|by eexists|done|done]).
    destruct Hans as [a Ha].
    destruct (all_futures _ ctx2 Hctx2 s _ _ a (S (S j1)) Hit Ha) as (j2 & p2 & s3 & Hr2 & Hp2).
    pose proof (reach_trans _ _ _ _ _ _ _ _ _ _ _ Hreach1 Hr2) as Hreach2. simpl in Hreach2.
    destruct r as [idxs|[e| |]]; [| |done|done]; injection Ha as <-.
    - change its with ([] ++ [] ++ its). eapply yields_app; [exact Hreach2|].
      eapply yields_app; [|eapply yields_loop; [exact IH|exact Hrun]].
      apply reach_one. unfold ctx2. cbn [poll_next]. by rewrite Hp2.
    - injection Hrun as <- <- <-. change [(IErr (EBuildIterator e), n)] with ([] ++ [(IErr (EBuildIterator e), n)] ++ []).
      eapply yields_app; [exact Hreach2|]. eapply yields_app.
      + eapply reach_one_item. unfold ctx2. cbn [poll_next]. by rewrite Hp2.
      + eexists _, _, s2, _, _. split; [constructor|done].
  Qed.

  (** ** As a list of polls *)

  Lemma reach_poll_all j t s its j' t' s' : reach j t s its j' t' s' ->
    forall l os s2, poll_all conf l t' s' = (os, s2) ->
    exists os', (j <= j')%nat /\ poll_all conf (map sched (seq j (j' - j)) ++ l) t s = (os' ++ os, s2) /\
      items_of (os' ++ os) = map fst its ++ items_of os /\ Forall woken os'.
  Proof.
    induction 1 as [j t s|j t s t1 s1 its j' t' s' Hp _ IH|j t s x w t1 s1 its j' t' s' Hp _ IH]; intros l os s2 Hl.
    - exists []. rewrite Nat.sub_diag. by split_and!.
    - destruct (IH l os s2 Hl) as (os' & Hle & Hall & Hits & Hw).
      exists ((OPending, true) :: os'). split; [lia|].
      replace (j' - j)%nat with (S (j' - S j)) by lia. cbn [seq map app poll_all]. rewrite Hp, Hall.
      split_and!; [done|done|by constructor].
    - destruct (IH l os s2 Hl) as (os' & Hle & Hall & Hits & Hw).
      exists ((OItem x, w) :: os'). split; [lia|].
      replace (j' - j)%nat with (S (j' - S j)) by lia. cbn [seq map app poll_all]. rewrite Hp, Hall.
      split_and!; [done|simpl; by rewrite Hits|by constructor].
  Qed.

  Lemma yields_poll_all t s its b s' : yields 0 t s its b s' ->
    exists m os, poll_all conf (map sched (seq 0 m)) t s = (os, s') /\ items_of os = map fst its /\
      fst <$> last os = Some (if b then OPanic else OEnd) /\ Forall woken os.
  Proof.
    intros (j' & t1 & s1 & t2 & w & Hr & Hend).
    set (o := (if b then OPanic else OEnd)) in *.
    assert (Hl : poll_all conf [sched j'] t1 s1 = ([(o, w)], s')).
    { cbn [poll_all]. rewrite Hend. unfold o. by destruct b. }
    destruct (reach_poll_all _ _ _ _ _ _ _ Hr _ _ _ Hl) as (os' & _ & Hall & Hits & Hw).
    exists (S j'), (os' ++ [(o, w)]). rewrite Nat.sub_0_r in Hall.
    split_and!.
    - rewrite seq_S, map_app. exact Hall.
    - rewrite Hits. unfold o. destruct b; by rewrite app_nil_r.
    - by rewrite last_snoc.
    - apply Forall_app. split; [done|]. constructor; [|done]. unfold woken, o. by destruct b.
  Qed.
End poll.

(** Every way of polling a stream to its end gives the items of the traversal. *)
Lemma polling fuel i conf o w its b w1 sched :
  do_call fuel i (CTraverse conf) o w = (inl (RItems its b), w1) -> fair sched ->
  exists t s m os s', run open_stream (view w i o) = (inl t, s) /\
    poll_all conf (map sched (seq 0 m)) t s = (os, s') /\
    commit_view w i s' = w1 /\ items_of os = its /\
    fst <$> last os = Some (if b then OPanic else OEnd) /\ Forall woken os.
Proof.
  intros H Hf. unfold do_call, api in H. cbn [call_prog] in H.
  rewrite run_bind, run_catch, run_bind in H. unfold tree_traverse in H. rewrite run_bind in H.
  unfold open_stream. rewrite run_bind.
  destruct (run (get_root false) (view w i o)) as [[[root|]|[e| |]] s]; [|done..].
  rewrite run_bind in H. destruct (run (trav fuel conf root) s) as [[[its' b']|[e| |]] s'] eqn:Ht; [|done..].
  injection H as <- <- <-.
  destruct (yields_poll_all conf sched _ _ _ _ _ (yields_trav conf sched Hf fuel root s its' b' s' Ht 0)) as (m & os & H1 & H2 & H3 & H4).
  exists (new_traverse root), s, m, os, s'. by split_and!.
Qed.

(** Any poll of any stream. *)
Lemma polling_wakes conf n t s o w t' s' : poll_next conf n t s = (o, w, t', s') -> o = OPending -> w = true.
Proof. intros H Ho. eapply wakes; [exact H|by left]. Qed.
