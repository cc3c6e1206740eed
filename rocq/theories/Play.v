(** Histories, event by event. *)
From Coq.Strings Require Import Byte.
From Coq Require Import Lia Sorting.Sorted.
From stdpp Require Import prelude gmap.
From Verif Require Import Bytes Codec Model CodecProofs Order Wp Store Tree Iter Read Zip Pure Seq Mut MutDel MutTop Commit Spec OrderProofs Client Abs Api Call Det Reader Hist Busy.

(** What a call that ran to its end is to the rest of the history. *)
Lemma call_step {BB : Base} bad w w1 m t i c o r : WInv (fun j => ~ bad j) w m t ->
  (r = fst (spec_call c (Store (length (w_core w)) m)) /\ took (fun j => ~ bad j) c w w1 m t) \/
  (has_fault o /\ failed_reply (parts (w_core w) t) c o m r /\ (append_fault o \/ w_core w1 = w_core w) /\
    (took (fun j => ~ bad j) c w w1 m t \/ stopped (fun j => ~ bad j) i c o w w1 m t)) ->
  exists a1 t1, length (w_core w1) = s_blocks a1 /\ WInv (fun j => ~ bad_after (EvCall i c o) bad j) w1 (s_entries a1) t1 /\
    w_core w `prefix_of` w_core w1 /\ (with_header (s_blocks a1) <= S (with_header (length (w_core w))))%nat /\
    (spec_call c (Store (length (w_core w)) m) = (r, a1) \/
     (has_fault o /\ failed_reply (fun _ _ => True) c o m r /\ after_fault c o (Store (length (w_core w)) m) a1)).
Proof.
  intros HI Hout.
  assert (took (fun j => ~ bad j) c w w1 m t ->
    (exists a1 t1, length (w_core w1) = s_blocks a1 /\ WInv (fun j => ~ bad_after (EvCall i c o) bad j) w1 (s_entries a1) t1 /\
      w_core w `prefix_of` w_core w1 /\
      (with_header (s_blocks a1) <= S (with_header (length (w_core w))))%nat /\ a1 = snd (spec_call c (Store (length (w_core w)) m)))) as Htook.
  { intros (t1 & Heff & HI1 & Hl1). eexists _, t1. split_and!; [exact Hl1| |by eapply effect_prefix|apply spec_call_grow|done].
    eapply WInv_weaken; [|exact HI1]. intros j Hj Hb. apply Hj. by left. }
  destruct Hout as [[Hr Htk]|(Hflt & Hfr%(failed_K _ (fun _ _ => True) _ _ _ _ (fun _ _ _ => I)) & Hap & [Htk|(Hc1 & Hro & HI1)])].
  - destruct (Htook Htk) as (a1 & t1 & H1 & H3 & H4 & H5 & H6). exists a1, t1. split_and!; try done.
    left. rewrite Hr, H6. by destruct (spec_call _ _).
  - destruct (Htook Htk) as (a1 & t1 & H1 & H3 & H4 & H5 & H6). exists a1, t1. split_and!; try done.
    right. split_and!; [done|done|]. split; [right; by right|].
    destruct Hap as [?|Ec]; [by left|right]. destruct a1 as [n1 m1']. cbn [s_blocks s_entries] in *.
    pose proof (wi_rep _ _ _ _ H3) as Hr1. rewrite Ec in Hr1. destruct (rep_det _ _ _ _ _ Hr1 (wi_rep _ _ _ _ HI)) as [-> _].
    by rewrite <-H1, Ec.
  - assert (WInv (fun j => ~ bad_after (EvCall i c o) bad j) w1 m t) as HI2.
    { eapply WInv_weaken; [|exact HI1]. intros j Hj. split; [intros Hb; apply Hj; by left|].
      destruct (decide (j = i)) as [->|Hne]; [|by left]. right. intros [Hs _]. apply Hj. by right. }
    destruct Hc1 as [Hc1|Hc1].
    + exists (Store (length (w_core w)) m), t. cbn [s_blocks s_entries]. rewrite Hc1. split_and!; try done; [lia|].
      right. split_and!; [done|done|]. split; [by left|by right].
    + exists (Store (with_header (length (w_core w))) m), t. cbn [s_blocks s_entries]. split_and!; try done.
      * by rewrite Hc1, headed_length.
      * rewrite Hc1. apply headed_prefix.
      * unfold with_header. lia.
      * right. split_and!; [done|done|]. split; [right; by left|].
        destruct Hap as [?|Ec]; [by left|right]. rewrite <-headed_length, <-Hc1. by rewrite Ec.
Qed.

Lemma play_spec {BB : Base} l : forall fuel w bad m t,
  WInv (fun j => ~ bad j) w m t -> trusted bad l -> Forall event_ok l -> fits w (length l) fuel ->
  exists rs w' b t', play fuel l w = (rs, w') /\ explains l (Store (length (w_core w)) m) rs b /\
    WInv (fun j => ~ bad_end l bad j) w' (s_entries b) t' /\ length (w_core w') = s_blocks b /\
    w_core w `prefix_of` w_core w' /\ fits w' 0 fuel.
Proof.
  induction l as [|e l IH]; intros fuel w bad m t HI Ht Hev Hfit.
  - exists [], w, (Store (length (w_core w)) m), t. split_and!; [done|constructor|done|done|done|done].
  - apply Forall_cons in Hev as [He Hev]. destruct Ht as [Hi Ht]. destruct e as [i c o|i|i c o k|xs sched|i c o xs sched].
    + destruct Hfit as [Hf1 Hf2]. cbn [length] in Hf1, Hf2. specialize (Hi i eq_refl).
      destruct (do_call_spec (fun j => ~ bad j) w m t fuel i c o HI Hi) as (r & w1 & Hdo & Hout);
        [unfold chain_small; unfold with_header in *; lia|unfold with_header in *; lia|exact He|].
      destruct (call_step _ _ _ _ _ _ _ _ _ HI Hout) as (a1 & t1 & Hl1 & HI1 & Hp1 & Hg1 & Hex).
      destruct (IH fuel w1 _ (s_entries a1) t1 HI1 Ht Hev) as (rs & w' & b & t' & E1 & E2 & E3 & E4 & E5 & E6).
      { unfold fits. rewrite Hl1. split; lia. }
      exists (inl r :: rs), w', b, t'. cbn [play]. rewrite Hdo, E1. split_and!; [done| |done|done|by etrans|done].
      rewrite Hl1 in E2. destruct a1 as [n1 m1]. cbn [s_blocks s_entries] in *.
      destruct Hex as [Hex|(X1 & X2 & X3)]; [eapply ex_call; [exact Hex|exact E2]|eapply ex_fault; [exact X1|exact X2|exact X3|exact E2]].
    + destruct (IH fuel (reopen i w) (bad_after (EvReopen i) bad) m t) as (rs & w' & b & t' & E1 & E2 & E3 & E4 & E5 & E6); [|done|done| |].
      * eapply WInv_weaken; [|by apply reopen_inv]. intros j Hj. cbn in Hj. destruct (decide (j = i)); [by right|left]. tauto.
      * destruct Hfit as [Hf1 Hf2]. cbn [length] in Hf1, Hf2. unfold fits. cbn [w_core reopen]. split; lia.
      * exists rs, w', b, t'. split_and!; [done| |done|done|done|done]. by constructor.
    + destruct Hfit as [Hf1 Hf2]. cbn [length] in Hf1, Hf2. specialize (Hi i eq_refl).
      destruct (drop_spec (fun j => ~ bad j) w m t fuel i c o k HI Hi) as (a1 & Haf & Hro & t1 & Hl1 & HI1); [split; lia|exact He|].
      set (w1 := commit_view w i (snd (run_upto k (api fuel c) (view w i o)))) in *.
      destruct (IH fuel w1 (bad_after (EvDrop i c o k) bad) (s_entries a1) t1) as (rs & w' & b & t' & E1 & E2 & E3 & E4 & E5 & E6); [|done|done| |].
      * eapply WInv_weaken; [|exact HI1]. intros j Hj. cbn in Hj. split; [tauto|]. destruct (decide (j = i)); [right|by left].
        destruct (reads_only_dec c); tauto.
      * pose proof (spec_call_grow c (Store (length (w_core w)) m)) as G. cbn [s_blocks] in G. unfold fits. rewrite Hl1.
        destruct Haf as [-> |[-> | ->]]; cbn [s_blocks]; unfold with_header in *; split; lia.
      * exists rs, w', b, t'. split_and!; [done| |done|done| |done].
        -- eapply ex_drop; [exact Haf|intros ?; by apply Hro|]. destruct a1 as [n1 m1]. cbn [s_blocks s_entries] in *. by rewrite Hl1 in E2.
        -- etrans; [|exact E5]. exact (run_upto_grow k (api fuel c) (view w i o)).
    + destruct Hfit as [Hf1 Hf2]. cbn [length] in Hf1, Hf2.
      destruct (tasks_inv (fun j => ~ bad j) w m t fuel xs sched HI) as [T1 T2]; [unfold with_header in *; lia| |].
      { apply Forall_forall. intros x Hx. cbn [event_ok] in He. rewrite Forall_forall in He. destruct (He x Hx). split_and!; [done|done|].
        apply Hi. cbn. by apply (elem_of_list_fmap_1 (fun x => fst (fst x))). }
      cbn zeta in T1, T2. destruct (IH fuel (snd (tasks_run sched (map (task fuel) xs) w)) bad m t) as (rs & w' & b & t' & E1 & E2 & E3 & E4 & E5 & E6); [done|done|done| |].
      * unfold fits. rewrite T1. split; lia.
      * rewrite T1 in E2, E5. exists rs, w', b, t'. split_and!; [done|by constructor|done|done|done|done].
    + destruct Hfit as [Hf1 Hf2]. cbn [length] in Hf1, Hf2. destruct He as (Hp & He & Hxs).
      destruct (do_busy_spec (fun j => ~ bad j) w m t fuel i c o xs sched HI) as (r & w1 & Hdo & Hout);
        [apply Hi; by left|unfold chain_small; unfold with_header in *; lia|unfold with_header in *; lia|exact He|left; destruct c; try done; by eexists| |].
      { apply Forall_forall. intros x Hx. rewrite Forall_forall in Hxs. destruct (Hxs x Hx). split; [done|].
        apply Hi. right. by apply (elem_of_list_fmap_1 (fun x => fst (fst x))). }
      destruct (call_step _ _ _ _ _ _ _ _ _ HI Hout) as (a1 & t1 & Hl1 & HI1 & Hp1 & Hg1 & Hex).
      destruct (IH fuel w1 _ (s_entries a1) t1 HI1 Ht Hev) as (rs & w' & b & t' & E1 & E2 & E3 & E4 & E5 & E6).
      { unfold fits. rewrite Hl1. split; lia. }
      exists (inl r :: rs), w', b, t'. cbn [play]. rewrite Hdo, E1. split_and!; [done| |done|done|by etrans|done].
      rewrite Hl1 in E2. destruct a1 as [n1 m1]. cbn [s_blocks s_entries] in *.
      destruct Hex as [Hex|(X1 & X2 & X3)]; [eapply ex_busy; [exact Hex|exact E2]|eapply ex_busy_fault; [exact X1|exact X2|exact X3|exact E2]].
Qed.
