(** Readers that run at the same time as each other and as writers on other
    handles. *)
From Coq.Strings Require Import Byte.
From Coq Require Import Lia Sorting.Sorted.
From stdpp Require Import prelude gmap.
From Verif Require Import Bytes Codec Model CodecProofs Order Wp Store Tree Iter Read Zip Pure Seq Mut MutDel MutTop Commit Spec OrderProofs Client Abs Api Call Det Reader Hist Main Threads.

Local Arguments decode_block : simpl never.
Local Arguments blocks_get : simpl never.
Local Arguments api : simpl never.

(** ** The actor alone *)
Lemma play_unused fuel l j : forall w, Forall plain l -> Forall (fun e => ~ uses e j) l -> w_handles (snd (play fuel l w)) j = w_handles w j.
Proof.
  induction l as [|e l IH]; intros w Hp Hl; [done|]. apply Forall_cons in Hl as [He Hl]. apply Forall_cons in Hp as [Hpe Hp].
  destruct e as [i c o|i| | |]; [..|done|done|done]; cbn [play uses] in *.
  - unfold do_call. destruct (run (api fuel c) (view w i o)) as [r s]. specialize (IH (commit_view w i s) Hp Hl).
    destruct (play fuel l (commit_view w i s)) as [rs w']. cbn [snd] in *. rewrite IH. cbn. unfold set_handle.
    destruct (Nat.eqb_spec j i); [by subst|done].
  - rewrite IH by done. cbn. unfold set_handle. destruct (Nat.eqb_spec j i); [by subst|done].
Qed.

Lemma bad_end_app l1 l2 bad : bad_end (l1 ++ l2) bad = bad_end l2 (bad_end l1 bad).
Proof. revert bad. induction l1 as [|e l1 IH]; intros bad; [done|]. apply IH. Qed.
Lemma bad_end_unused l j : Forall (fun e => ~ uses e j) l -> forall bad, bad_end l bad j -> bad j.
Proof.
  induction 1 as [|e l He Hl IH]; intros bad; [done|]. cbn. intros H%IH. destruct e as [i c o|i|i c o k|xs sched|i c o xs sched]; cbn in *.
  - destruct H as [H|(-> & _)]; done.
  - apply H.
  - destruct H as [H|(-> & _)]; done.
  - done.
  - destruct H as [H|(-> & _)]; [done|]. destruct He. by left.
Qed.

Lemma world_after_app fuel l1 l2 : world_after fuel (l1 ++ l2) = snd (play fuel l2 (world_after fuel l1)).
Proof. unfold world_after. rewrite play_app. destruct (play fuel l1 _) as [rs w1]. cbn [snd]. by destruct (play fuel l2 w1). Qed.

Section system.
  Context (fuel : nat) (l1 l2 : list event) (H : nat -> Prop).
  Context (Hist : history fuel 1 (l1 ++ l2)) (Hus : forall i, H i -> usable l1 i).
  Context (Hpl : Forall plain l2) (Hl2 : forall e i, e ∈ l2 -> uses e i -> ~ H i).
  Local Notation w0 := (world_after fuel l1).

  (** The same core, and the same handles but for those in [H]. *)
  Definition weq (w w' : world) : Prop := w_core w = w_core w' /\ forall j, ~ H j -> w_handles w j = w_handles w' j.

  (** The actor is between two calls, or inside one. *)
  Inductive moment (a : actor) (w : world) : Prop :=
  | mo_between ld : a_now a = None -> l2 = ld ++ a_todo a -> weq w (world_after fuel (l1 ++ ld)) ->
      a_done a = fst (play fuel ld w0) -> moment a w
  | mo_inside ld i c o k p s : l2 = ld ++ EvCall i c o :: a_todo a ->
      run_upto k (api fuel c) (view (world_after fuel (l1 ++ ld)) i o) = (p, s) ->
      a_now a = Some (Thread i p (oracle s)) -> weq w (commit_view (world_after fuel (l1 ++ ld)) i s) ->
      a_done a = fst (play fuel ld w0) -> moment a w.

  Lemma run_upto_S {A} k : forall (p : prog A) s, run_upto (S k) p s = step (fst (run_upto k p s)) (snd (run_upto k p s)).
  Proof.
    induction k as [|k IH]; intros p s; [cbn; by destruct (step p s)|].
    change (run_upto (S (S k)) p s) with (let '(p', s') := step p s in run_upto (S k) p' s').
    change (run_upto (S k) p s) with (let '(p', s') := step p s in run_upto k p' s').
    destruct (step p s) as [p' s']. apply IH.
  Qed.

  Lemma moment_step a w a' w' : moment a w -> actor_step fuel a w = (a', w') ->
    moment a' w' /\ w_core w `prefix_of` w_core w' /\ forall j, H j -> w_handles w' j = w_handles w j.
  Proof.
    intros Hm E. destruct Hm as [ld Hn Hl Hw Hd|ld i c o k p s Hl Hr Hn Hw Hd]; unfold actor_step in E; rewrite Hn in E.
    - destruct (a_todo a) as [|[i c o|i|i c o k|xs sched|i c o xs sched] l] eqn:Et.
      4-6: exfalso; rewrite Hl in Hpl; apply Forall_app in Hpl as [_ Hpl']; apply Forall_cons in Hpl' as [Hpl' _]; done.
      + injection E as <- <-. split_and!; [|done|done]. eapply (mo_between a w ld); [done|by rewrite Et|done|done].
      + injection E as <- <-. split_and!; [|done|done]. eapply (mo_inside _ _ ld i c o 0); [done|reflexivity|done| |done].
        destruct Hw as [Hc Hh]. split; [done|]. intros j Hj. rewrite (Hh j Hj). cbn. unfold set_handle.
        destruct (Nat.eqb_spec j i) as [->|]; [|done]. by destruct (w_handles (world_after fuel (l1 ++ ld)) i).
      + injection E as <- <-. assert (~ H i) as Hi.
        { apply (Hl2 (EvReopen i)); [|done]. rewrite Hl. apply elem_of_app. right. by left. }
        split_and!; [|done|].
        * eapply (mo_between _ _ (ld ++ [EvReopen i])); [done|by rewrite <-app_assoc| |].
          -- rewrite app_assoc, (world_after_app fuel (l1 ++ ld)). destruct Hw as [Hc Hh]. split; [done|].
             intros j Hj. cbn. unfold set_handle. destruct (j =? i)%nat; [done|by apply Hh].
          -- cbn [a_done]. rewrite Hd, play_app. destruct (play fuel ld w0) as [rs w1]. cbn. by rewrite app_nil_r.
        * intros j Hj. cbn. unfold set_handle. destruct (Nat.eqb_spec j i) as [->|]; [done|done].
    - assert (~ H i) as Hi. { apply (Hl2 (EvCall i c o)); [|done]. rewrite Hl. apply elem_of_app. right. by left. }
      set (wd := world_after fuel (l1 ++ ld)) in *. cbn [th_prog] in E.
      assert (forall r, run p s = (r, s) -> weq w (world_after fuel (l1 ++ ld ++ [EvCall i c o])) /\
        a_done a ++ [r] = fst (play fuel (ld ++ [EvCall i c o]) w0)) as Hend.
      { intros r Er. pose proof (run_run_upto k (api fuel c) (view wd i o)) as R. rewrite Hr in R. cbn [fst snd] in R.
        assert (do_call fuel i c o wd = (r, commit_view wd i s)) as Dc. { unfold do_call. by rewrite <-R, Er. }
        split.
        - rewrite app_assoc, world_after_app. fold wd. cbn [play]. by rewrite Dc.
        - rewrite Hd, play_app. pose proof (world_after_app fuel l1 ld) as Ew. fold wd in Ew.
          destruct (play fuel ld w0) as [rs w1]. cbn [snd fst] in *. subst w1. cbn [play]. by rewrite Dc. }
      assert (forall r, run p s = (r, s) -> (a', w') = (Actor None (a_todo a) (a_done a ++ [r]), w) ->
        moment a' w' /\ w_core w `prefix_of` w_core w' /\ forall j, H j -> w_handles w' j = w_handles w j) as Hfin.
      { intros r Er [= -> ->]. split_and!; [|done|done]. destruct (Hend r Er) as [E1 E2].
        eapply (mo_between _ _ (ld ++ [EvCall i c o])); [done|by rewrite <-app_assoc|done|done]. }
      assert (step p (view w i (oracle s)) = step p s) as Es.
      { destruct Hw as [Hc Hh]. unfold view. rewrite Hc, (Hh i Hi). cbn. unfold set_handle. rewrite Nat.eqb_refl. cbn. by destruct s. }
      assert (forall p' s', step p s = (p', s') -> (a', w') = (Actor (Some (Thread i p' (oracle s'))) (a_todo a) (a_done a), commit_view w i s') ->
        moment a' w' /\ w_core w `prefix_of` w_core w' /\ forall j, H j -> w_handles w' j = w_handles w j) as Hgo.
      { intros p' s' E' [= -> ->]. split_and!.
        - eapply (mo_inside _ _ ld i c o (S k) p' s'); [done| |done| |done].
          + rewrite run_upto_S. fold wd. rewrite Hr. exact E'.
          + destruct Hw as [Hc Hh]. split; [done|]. intros j Hj. rewrite <-?(Hh j Hj). cbn. unfold set_handle.
            destruct (Nat.eqb_spec j i) as [->|Hne]; [done|]. rewrite (Hh j Hj). cbn. unfold set_handle. by apply Nat.eqb_neq in Hne as ->.
        - pose proof (step_grow p s) as G. rewrite E' in G. cbn. destruct Hw as [Hc _]. rewrite Hc. exact G.
        - intros j Hj. cbn. unfold set_handle. destruct (Nat.eqb_spec j i) as [->|]; [done|done]. }
      unfold thread_step in E. cbn [th_prog th_handle th_faults] in E. rewrite Es in E.
      destruct p as [r|x|kk|q kk|b kk|q kk|q e kk|nd kk|n kk|n f kk].
      1: { eapply Hfin; [reflexivity|by rewrite <-E]. }
      1: { eapply Hfin; [reflexivity|by rewrite <-E]. }
      all: match goal with |- _ => destruct (step _ s) as [p' s'] eqn:E'; eapply Hgo; [reflexivity|by rewrite <-E] end.
  Qed.

  Lemma usable_later ld j : (exists lr, l2 = ld ++ lr) -> H j -> usable (l1 ++ ld) j /\
    w_handles (world_after fuel (l1 ++ ld)) j = w_handles w0 j.
  Proof.
    intros [lr El] Hj. assert (Forall (fun e => ~ uses e j) ld) as Hun.
    { apply Forall_forall. intros e He Hu. apply (Hl2 e j); [|done|done]. rewrite El. apply elem_of_app. by left. }
    split.
    - unfold usable. rewrite bad_end_app. intros Hb. apply (Hus j Hj). by eapply bad_end_unused.
    - rewrite world_after_app. apply play_unused; [|done]. rewrite El in Hpl. by apply Forall_app in Hpl as [? _].
  Qed.

  (** At every moment the core holds a store, and the handles in [H] agree with it. *)
  Lemma moment_core a w : moment a w -> exists m t, valid (w_core w) /\ rep (w_core w) m t /\ (length (w_core w) <= fuel)%nat /\
    forall j, H j -> okh (St (w_core w) (h_cache (w_handles w0 j)) (h_heap (w_handles w0 j)) []) t.
  Proof.
    assert (forall ld n, (exists lr, l2 = ld ++ lr /\ n <= length lr)%nat -> history fuel (S n) (l1 ++ ld)) as Hh.
    { intros ld n (lr & El & Hn). destruct Hist as (Ht & Hev & Hlen & Hnn). rewrite El in *. rewrite app_assoc in *.
      rewrite !app_length in *. split_and!; [|by apply Forall_app in Hev as [? _]|rewrite app_length; lia|rewrite app_length; lia].
      clear -Ht. revert Ht. generalize (l1 ++ ld) as la. intros la. generalize nobody.
      induction la as [|e la IH]; intros bad; [done|]. intros [? ?]. split; [done|]. by apply IH. }
    intros [ld Hn Hl [Hw _] Hd|ld i c o k p s Hl Hr Hn [Hw _] Hd].
    - assert (history fuel 1 (l1 ++ ld)) as H1. { apply (Hh ld 0). exists (a_todo a). split; [done|lia]. }
      reach H1. exists m, t. rewrite Hw. destruct Hfit as [Hf _]. split_and!; [apply HI|apply HI|unfold with_header in Hf; lia|].
      intros j Hj. destruct (usable_later ld j) as [Hu E]; [by eexists|done|]. rewrite <-E. by apply (wi_ok _ _ _ _ HI).
    - assert (history fuel 2 (l1 ++ ld)) as H1. { apply (Hh ld 1). eexists. split; [done|]. cbn. lia. }
      assert (call_ok c) as Hc.
      { destruct Hist as (_ & Hev & _). rewrite Hl in Hev. apply Forall_app in Hev as [_ Hev]. apply Forall_app in Hev as [_ Hev].
        apply Forall_cons in Hev as [Hev _]. exact Hev. }
      assert (usable (l1 ++ ld) i) as Hi.
      { destruct Hist as (Ht & _). rewrite Hl, app_assoc in Ht. clear -Ht. unfold usable. revert Ht. generalize (l1 ++ ld) as la.
        intros la. generalize nobody. induction la as [|e la IH]; intros bad; cbn; [intros [Hb _]; by apply Hb|]. intros [_ ?]. by apply IH. }
      reach H1. destruct Hfit as [Hf1 Hf2].
      destruct (crash_core _ _ _ _ fuel i c o k HI Hi) as (b1 & Ha & t1 & Hv & Hrp & Hlen & Hj); [split; lia|done|].
      rewrite Hr in *. cbn [snd] in *. exists (s_entries b1), t1. rewrite Hw. cbn [w_core commit_view].
      split_and!; [done|done| |].
      + rewrite Hlen. pose proof (spec_call_grow c (Store (length (w_core (world_after fuel (l1 ++ ld)))) m)) as G. cbn [s_blocks] in G.
        unfold with_header in *. destruct Ha as [-> |[-> | ->]]; cbn [s_blocks]; unfold with_header; lia.
      + intros j Hj'. destruct (usable_later ld j) as [Hu E]; [by eexists|done|]. rewrite <-E. apply Hj; [done|]. intros ->.
        apply (Hl2 (EvCall i c o) i); [|done|done]. rewrite Hl. apply elem_of_app. right. by left.
  Qed.
End system.

(** ** Actor and readers together *)
Lemma sys_run_app fuel s1 : forall s2 y, sys_run fuel (s1 ++ s2) y = sys_run fuel s2 (sys_run fuel s1 y).
Proof. induction s1 as [|m s1 IH]; intros s2 y; [done|]. apply IH. Qed.

Section readers.
  Context (fuel : nat) (l1 l2 : list event) (rds : list (nat * call * list fault)).
  Context (Hist : history fuel 1 (l1 ++ l2)) (Hpl : Forall plain l2) (Hrd : Forall (reading l1 l2) rds).
  Definition handles (i : nat) : Prop := exists c o, (i, c, o) ∈ rds.
  Local Notation w0 := (world_after fuel l1).
  Local Notation y0 := (Sys (Actor None l2 []) (map (task fuel) rds) w0).

  Lemma handles_usable i : handles i -> usable l1 i.
  Proof. intros (c & o & Hx). rewrite Forall_forall in Hrd. by destruct (Hrd _ Hx). Qed.
  Lemma handles_unused e i : e ∈ l2 -> uses e i -> ~ handles i.
  Proof.
    intros He Hu (c & o & Hx). rewrite Forall_forall in Hrd. destruct (Hrd _ Hx) as (_ & Hl & _). rewrite Forall_forall in Hl. by apply (Hl e).
  Qed.

  Record SInv (sched : list move) (y : sys) : Prop := {
    si_moment : moment fuel l1 l2 handles (y_actor y) (y_world y);
    si_cext : forall i, handles i -> cext (view w0 i []) (view (y_world y) i []);
    si_thread : forall j i c o, rds !! j = Some (i, c, o) -> exists t, y_threads y !! j = Some t /\ th_handle t = i /\
      ((MThread j ∉ sched /\ t = task fuel (i, c, o)) \/
       exists s1 s2 b, sched = s1 ++ MThread j :: s2 /\ MThread j ∉ s1 /\ behaves fuel (w_core (y_world (sys_run fuel s1 y0))) b /\
         rwp cext cown (th_prog t) (reader_post c o b) (fun _ _ => False) (view (y_world y) i (th_faults t))) }.

  Lemma view_cwf i : handles i -> cwf (view w0 i []).
  Proof.
    intros Hi. pose proof (history_prefix _ _ _ _ Hist) as H1. reach H1.
    apply (wi_ok _ _ _ _ HI i), handles_usable, Hi.
  Qed.

  Lemma sinv_init : SInv [] y0.
  Proof.
    split; cbn.
    - eapply (mo_between _ _ _ _ _ _ []); [done|done| |done]. by rewrite app_nil_r.
    - intros i _. apply cext_refl.
    - intros j i c o Hj. exists (task fuel (i, c, o)). rewrite list_lookup_fmap, Hj. split_and!; [done|done|].
      left. split; [apply not_elem_of_nil|done].
  Qed.

  Lemma sinv_step sched y m : y = sys_run fuel sched y0 -> SInv sched y -> SInv (sched ++ [m]) (sys_step fuel m y).
  Proof.
    intros Ey [Hm Hc Ht]. destruct m as [|j]; cbn [sys_step].
    - destruct (actor_step fuel (y_actor y) (y_world y)) as [a' w'] eqn:Ea.
      destruct (moment_step _ _ _ _ Hpl handles_unused _ _ _ _ Hm Ea) as (Hm' & Hp & Hh).
      assert (forall i o, handles i -> cext (view (y_world y) i o) (view w' i o)) as Hx.
      { intros i o Hi. unfold view. rewrite (Hh i Hi). by apply cext_grow. }
      split; cbn [y_actor y_world y_threads].
      + done.
      + intros i Hi. eapply cext_trans; [by apply Hc|by apply Hx].
      + intros j i c o Hj. destruct (Ht j i c o Hj) as (t & H1 & H2 & H3). exists t. split_and!; [done|done|].
        destruct H3 as [[H3 H4]|(s1 & s2 & b & H3 & H4 & H5 & H6)].
        * left. split; [|done]. rewrite elem_of_app, elem_of_list_singleton. intros [?|?]; done.
        * right. exists s1, (s2 ++ [MActor]), b. split_and!; [by rewrite H3, <-app_assoc|done|done|].
          eapply rwp_env_step; [|exact H6]. apply Hx. by exists c, o; eapply elem_of_list_lookup_2.
    - destruct (y_threads y !! j) as [t|] eqn:Etj.
      2:{ split; [done|done|]. intros j' i c o Hj. destruct (Ht j' i c o Hj) as (t & H1 & H2 & H3). exists t. split_and!; [done|done|].
          assert (j' <> j) by congruence. destruct H3 as [[H3 H4]|(s1 & s2 & b & H3 & H4 & H5 & H6)].
          - left. split; [|done]. rewrite elem_of_app, elem_of_list_singleton. intros [?|?]; congruence.
          - right. exists s1, (s2 ++ [MThread j]), b. split_and!; [by rewrite H3, <-app_assoc|done|done|done]. }
      destruct (rds !! j) as [[[i c] o]|] eqn:Erj.
      2:{ exfalso. assert (length (y_threads y) = length rds) as Hlen.
          { rewrite Ey. clear. assert (length (y_threads y0) = length rds) as E by (cbn; by rewrite map_length).
            revert E. generalize y0. induction sched as [|m sched IH]; intros y E; [done|]. cbn. apply IH.
            destruct m as [|j]; cbn.
            - destruct (actor_step _ _ _). done.
            - destruct (y_threads y !! j); [|done]. destruct (thread_step _ _). cbn. by rewrite insert_length. }
          apply lookup_lt_Some in Etj. apply lookup_ge_None in Erj. lia. }
      assert (handles i) as Hi. { exists c, o. by eapply elem_of_list_lookup_2. }
      assert (reads_only c /\ call_ok c) as [Hro Hok].
      { rewrite Forall_forall in Hrd. destruct (Hrd (i, c, o)) as (_ & _ & ? & ?); [by eapply elem_of_list_lookup_2|done]. }
      destruct (Ht j i c o Erj) as (t' & H1 & H2 & H3). rewrite Etj in H1. injection H1 as <-.
      (* the step of this thread *)
      assert (exists p s, step (th_prog t) (view (y_world y) i (th_faults t)) = (p, s) /\
        cown (view (y_world y) i (th_faults t)) s /\
        exists s1 s2 b, sched ++ [MThread j] = s1 ++ MThread j :: s2 /\ MThread j ∉ s1 /\
          behaves fuel (w_core (y_world (sys_run fuel s1 y0))) b /\
          rwp cext cown p (reader_post c o b) (fun _ _ => False) s) as (p & s & Es & [Hcx Hcore] & Hrest).
      { destruct H3 as [[H3 ->]|(s1 & s2 & b & H3 & H4 & H5 & H6)].
        - cbn [task th_prog th_faults] in *.
          destruct (moment_core _ _ _ _ Hist handles_usable Hpl handles_unused _ _ Hm) as (m & t & Hv & Hr & Hf & Hj).
          set (s := view (y_world y) i o) in *.
          assert (step (api fuel c) s = (started (length (core s)) (api fuel c), s)) as Es.
          { destruct c; try done. }
          exists (started (length (core s)) (api fuel c)), s. split_and!; [done|split; [apply cext_refl|done]|].
          exists sched, [], (Store (length (w_core (y_world y))) m). split_and!; [done|done| |].
          + rewrite <-Ey. by eapply behaves_rep.
          + apply (reader_started s m t fuel c); [done|done|exact Hr| |exact Hf].
            assert (cext (view w0 i o) s) as Hx by (exact (cext_set_oracle _ _ o (Hc i Hi))).
            eapply rdy_cext; [exact Hx|exact (view_cwf i Hi)|exact Hr|]. apply okh_rdy. exact (Hj i Hi).
        - destruct (rwp_step _ _ _ H6) as [H7 H8]. destruct (step (th_prog t) (view (y_world y) i (th_faults t))) as [p s].
          exists p, s. split_and!; [done|done|]. exists s1, (s2 ++ [MThread j]), b. split_and!; [by rewrite H3, <-app_assoc|done|done|done]. }
      unfold thread_step. rewrite H2, Es. cbn [y_actor y_world y_threads].
      set (w' := commit_view (y_world y) i s).
      assert (w_core w' = w_core (y_world y)) as Hcw by exact Hcore.
      split; cbn [y_actor y_world y_threads].
      + assert (forall w, weq handles (y_world y) w -> weq handles w' w) as Hwe.
        { intros w [W1 W2]. split; [by rewrite Hcw|]. intros k Hk. rewrite <-(W2 k Hk). cbn. unfold set_handle.
          destruct (Nat.eqb_spec k i) as [->|]; [done|done]. }
        destruct Hm as [ld M1 M2 M3 M4|ld i' c' o' k' p' s' M1 M2 M3 M4 M5].
        * eapply (mo_between _ _ _ _ _ _ ld); eauto.
        * eapply (mo_inside _ _ _ _ _ _ ld i' c' o' k' p' s'); eauto.
      + intros i' Hi'. eapply cext_trans; [by apply Hc|]. by eapply cext_commit.
      + intros j' i' c' o' Hj'. destruct (decide (j' = j)) as [->|Hne].
        * rewrite Erj in Hj'. injection Hj' as <- <- <-. exists (Thread i p (oracle s)). split_and!; [|done|].
          -- apply list_lookup_insert. by eapply lookup_lt_Some.
          -- right. destruct Hrest as (s1 & s2 & b & R1 & R2 & R3 & R4). exists s1, s2, b. split_and!; [done|done|done|].
             cbn [th_prog th_faults]. unfold w'. rewrite view_commit, Nat.eqb_refl. by destruct s.
        * destruct (Ht j' i' c' o' Hj') as (t' & T1 & T2 & T3). exists t'. split_and!; [by rewrite list_lookup_insert_ne|done|].
          destruct T3 as [[T3 T4]|(s1 & s2 & b & T3 & T4 & T5 & T6)].
          -- left. split; [|done]. rewrite elem_of_app, elem_of_list_singleton. intros [?|?]; congruence.
          -- right. exists s1, (s2 ++ [MThread j]), b. split_and!; [by rewrite T3, <-app_assoc|done|done|].
             eapply rwp_env_step; [|exact T6]. unfold w'. by eapply cext_commit.
  Qed.

  Lemma sinv_run sched : SInv sched (sys_run fuel sched y0).
  Proof.
    induction sched as [|m sched IH] using rev_ind; [apply sinv_init|]. rewrite sys_run_app. by apply sinv_step.
  Qed.

  (** Every reader answers from the version that was current when it made its first
      step, and the actor is not disturbed. *)
  Lemma readers_isolated sched :
    let y := sys_run fuel sched y0 in
    (forall j i c o, rds !! j = Some (i, c, o) -> stopped_at y j = None /\
       forall r, answer y j = Some r -> exists s1 s2 b, sched = s1 ++ MThread j :: s2 /\ MThread j ∉ s1 /\
         behaves fuel (w_core (y_world (sys_run fuel s1 y0))) b /\
         (r = fst (spec_call c b) \/ (has_fault o /\ failed_reply (fun _ _ => True) c o (s_entries b) r))) /\
    a_done (y_actor y) `prefix_of` fst (play fuel l2 w0) /\
    (a_now (y_actor y) = None -> a_todo (y_actor y) = [] ->
       a_done (y_actor y) = fst (play fuel l2 w0) /\ w_core (y_world y) = w_core (world_after fuel (l1 ++ l2))).
  Proof.
    cbn zeta. destruct (sinv_run sched) as [Hm Hc Ht]. set (y := sys_run fuel sched y0) in *. split_and!.
    - intros j i c o Hj. destruct (Ht j i c o Hj) as (t & H1 & H2 & H3). unfold stopped_at, answer. rewrite H1. cbn [fmap option_fmap option_map].
      destruct H3 as [[H3 ->]|(s1 & s2 & b & H3 & H4 & H5 & H6)].
      + rewrite Forall_forall in Hrd. destruct (Hrd (i, c, o)) as (_ & _ & ? & ?); [by eapply elem_of_list_lookup_2|]. by destruct c.
      + destruct (th_prog t) as [r|x|k|q k|bb k|q k|q e k|nd k|n k|n f k]; try (split; [done|]; intros ? [=]).
        * subst r. exists s1, s2, b. split_and!; [done|done|done|]. exact (H6 _ (cext_refl _)).
        * destruct (H6 _ (cext_refl _)).
    - destruct Hm as [ld M1 M2 M3 M4|ld i' c' o' k' p' s' M1 M2 M3 M4 M5].
      + rewrite M4, M2, play_app. destruct (play fuel ld w0) as [rs w1]. destruct (play fuel _ w1). by apply prefix_app_r.
      + rewrite M5, M1, play_app. destruct (play fuel ld w0) as [rs w1]. destruct (play fuel _ w1). by apply prefix_app_r.
    - intros Hn Hl. destruct Hm as [ld M1 M2 [M3 _] M4|ld i' c' o' k' p' s' M1 M2 M3 M4 M5]; [|congruence].
      rewrite Hl, app_nil_r in M2. subst ld. done.
  Qed.
End readers.

(** ** Every task ends *)
Lemma map_seq_S {A} (f : nat -> A) n : map f (seq 0 (S n)) = f 0 :: map (fun k => f (S k)) (seq 0 n).
Proof. cbn [seq map]. f_equal. by rewrite <-seq_shift, map_map. Qed.

Global Instance move_eq_dec : EqDecision move.
Proof. solve_decision. Defined.

Lemma other_move fuel m y j t : m <> MThread j -> y_threads y !! j = Some t -> y_threads (sys_step fuel m y) !! j = Some t.
Proof.
  intros Hm Ht. destruct m as [|j']; cbn.
  - destruct (actor_step _ _ _). done.
  - destruct (y_threads y !! j'); [|done]. destruct (thread_step _ _). cbn. rewrite list_lookup_insert_ne; [done|congruence].
Qed.

Lemma finishes fuel j (p : prog reply) : forall y t (f : nat -> move), y_threads y !! j = Some t -> th_prog t = p ->
  (forall n, exists k, n <= k /\ f k = MThread j)%nat -> exists n, ended (sys_run fuel (map f (seq 0 n)) y) j.
Proof.
  assert (forall (p : prog reply) (P : prog reply -> Prop),
    (forall q y t (f : nat -> move), P q -> y_threads y !! j = Some t -> th_prog t = q ->
      (forall n, exists k, n <= k /\ f k = MThread j)%nat -> exists n, ended (sys_run fuel (map f (seq 0 n)) y) j) ->
    (forall s, P (fst (step p s))) ->
    forall y t (f : nat -> move), y_threads y !! j = Some t -> th_prog t = p ->
      (forall n, exists k, n <= k /\ f k = MThread j)%nat -> exists n, ended (sys_run fuel (map f (seq 0 n)) y) j) as Hstep.
  { intros q P IH HP y t f Ht Hp Hf. destruct (Hf 0) as (k & _ & Hk). revert y f Ht Hf Hk.
    induction k as [|k IHk]; intros y f Ht Hf Hk.
    all: assert (forall n, exists k, n <= k /\ (fun k => f (S k)) k = MThread j)%nat as Hf'
      by (intros n; destruct (Hf (S n)) as (k' & Hle & Hk'); destruct k' as [|k']; [lia|]; exists k'; split; [lia|done]).
    all: assert (f 0 = MThread j -> exists n, ended (sys_run fuel (map f (seq 0 n)) y) j) as Hnow.
    1,3: intros H0; pose proof (HP (view (y_world y) (th_handle t) (th_faults t))) as HPs;
      destruct (step q (view (y_world y) (th_handle t) (th_faults t))) as [q' s'] eqn:Es; cbn [fst] in HPs;
      edestruct (IH q' (sys_step fuel (MThread j) y) (Thread (th_handle t) q' (oracle s')) (fun k => f (S k)) HPs) as [n Hn];
      [cbn; rewrite Ht; unfold thread_step; rewrite Hp, Es; cbn; apply list_lookup_insert; by eapply lookup_lt_Some
      |done|exact Hf'|exists (S n); rewrite map_seq_S, H0; exact Hn].
    - by apply Hnow.
    - destruct (decide (f 0 = MThread j)) as [H0|H0]; [by apply Hnow|].
      edestruct (IHk (sys_step fuel (f 0) y) (fun k => f (S k))) as [n Hn]; [by apply other_move|exact Hf'|exact Hk|].
      exists (S n). by rewrite map_seq_S. }
  assert (forall (x : stop) y t (f : nat -> move), y_threads y !! j = Some t -> th_prog t = Stop x ->
    exists n, ended (sys_run fuel (map f (seq 0 n)) y) j) as Hst.
  { intros x y t f Ht Hp. exists 0. right. exists x. cbn. unfold stopped_at. rewrite Ht. cbn. by rewrite Hp. }
  induction p as [r|x|k IH|q k IH|b k IH|q k IH|q e k IH|nd k IH|n k IH|n g k IH].
  - intros y t f Ht Hp _. exists 0. left. exists r. cbn. unfold answer. rewrite Ht. cbn. by rewrite Hp.
  - intros y t f Ht Hp _. by eapply Hst.
  - apply (Hstep _ (fun q => exists x, q = k x)); [intros q' y t f [x ->]; apply IH|]. intros s. by eexists.
  - apply (Hstep _ (fun q => exists x, q = k x)); [intros q' y t f [x ->]; apply IH|]. intros s. cbn. destruct (exec_get q s). by eexists.
  - apply (Hstep _ (fun q => exists x, q = k x)); [intros q' y t f [x ->]; apply IH|]. intros s. cbn. destruct (exec_append b s). by eexists.
  - apply (Hstep _ (fun q => exists x, q = k x)); [intros q' y t f [x ->]; apply IH|]. intros s. by eexists.
  - apply (Hstep _ (fun q => q = k)); [intros q' y t f ->; apply IH|]. done.
  - apply (Hstep _ (fun q => exists x, q = k x)); [intros q' y t f [x ->]; apply IH|]. intros s. by eexists.
  - apply (Hstep _ (fun q => q = Stop SPanic \/ exists x, q = k x)).
    + intros q' y t f [-> |[x ->]]; [intros; by eapply Hst|apply IH].
    + intros s. cbn. destruct (heap s !! n); [right; by eexists|by left].
  - apply (Hstep _ (fun q => q = Stop SPanic \/ exists x, q = k x)).
    + intros q' y t f [-> |[x ->]]; [intros; by eapply Hst|apply IH].
    + intros s. cbn. destruct (heap s !! n) as [nd|]; [|by left]. destruct (g nd); [right; by eexists|by left].
Qed.

(** Without an actor the answers are those of the store. *)
Lemma readers_alone fuel l rds sched : history fuel 1 l -> Forall (reading l []) rds ->
  let w := world_after fuel l in
  let y := sys_run fuel sched (Sys idle (map (task fuel) rds) w) in
  w_core (y_world y) = w_core w /\
  forall j i c o, rds !! j = Some (i, c, o) -> stopped_at y j = None /\
    forall r, answer y j = Some r -> inl r = fst (do_call fuel i c [] w) \/ (has_fault o /\ exists b,
      behaves fuel (w_core w) b /\ failed_reply (fun _ _ => True) c o (s_entries b) r).
Proof.
  intros Hl Hr. cbn zeta. pose proof Hl as Hl'. rewrite <-(app_nil_r l) in Hl'.
  pose proof (fun s => readers_isolated fuel l [] rds Hl' ltac:(constructor) Hr s) as HH. cbn [play fst] in HH.
  assert (forall s, a_now (y_actor (sys_run fuel s (Sys idle (map (task fuel) rds) (world_after fuel l)))) = None /\
    a_todo (y_actor (sys_run fuel s (Sys idle (map (task fuel) rds) (world_after fuel l)))) = []) as Hid.
  { intros s. assert (y_actor (Sys idle (map (task fuel) rds) (world_after fuel l)) = idle) as E by done. revert E.
    generalize (Sys idle (map (task fuel) rds) (world_after fuel l)). induction s as [|m s IH]; intros y E; [cbn; by rewrite E|].
    cbn. apply IH. destruct m as [|j]; cbn.
    - rewrite E. done.
    - destruct (y_threads y !! j); [|done]. by destruct (thread_step _ _). }
  assert (forall s, w_core (y_world (sys_run fuel s (Sys idle (map (task fuel) rds) (world_after fuel l)))) = w_core (world_after fuel l)) as Hcore.
  { intros s. destruct (HH s) as (_ & _ & H3). destruct (Hid s) as [I1 I2]. destruct (H3 I1 I2) as [_ E].
    rewrite app_nil_r in E. exact E. }
  split; [apply Hcore|]. intros j i c o Hj. destruct (HH sched) as (H1 & _ & _).
  destruct (H1 j i c o Hj) as [H2 H3]. split; [done|]. intros r Hr'.
  destruct (H3 r Hr') as (s1 & s2 & b & _ & _ & Hb & Hans).
  rewrite Forall_forall in Hr. destruct (Hr (i, c, o)) as (Hu & _ & Hro & Hok); [by eapply elem_of_list_lookup_2|].
  reach Hl. destruct (call_clean _ _ _ _ fuel 0 i c HI Hu Hfit Hok) as (w' & D1 & _ & _). rewrite HN in D1.
  assert (behaves fuel (w_core (world_after fuel l)) b) as Hbb.
  { pose proof (Hcore s1) as E. unfold idle in E. rewrite <-E. exact Hb. }
  assert (forall c, call_ok c -> fst (spec_call c b) = fst (spec_call c (Store N m))) as Hsame.
  { intros c' Hc'. destruct Hfit as [Hf1 Hf2].
    destruct (Hbb [EvCall 0 c' []]) as [wa Ha]; [by constructor|constructor; [apply no_fault|done]|cbn; unfold with_header in *; lia|cbn; unfold with_header in *; lia|].
    destruct (behaves_rep fuel _ _ _ (wi_valid _ _ _ _ HI) (wi_rep _ _ _ _ HI) [EvCall 0 c' []]) as [wb Hb'];
      [by constructor|constructor; [apply no_fault|done]|cbn; unfold with_header in *; lia|cbn; unfold with_header in *; lia|].
    rewrite Ha in Hb'. rewrite HN in Hb'. cbn [calls_of spec_run] in Hb'.
    destruct (spec_call c' b) as [ra sa], (spec_call c' (Store N m)) as [rb sb]. cbn in Hb'. injection Hb' as -> _. done. }
  destruct Hans as [-> |[Hf Hx]].
  - left. rewrite D1. cbn [fst]. f_equal. by apply Hsame.
  - right. split; [done|]. by exists b.
Qed.
