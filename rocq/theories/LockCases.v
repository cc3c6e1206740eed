(** Calls that wait for ever. *)
From Coq.Strings Require Import Byte.
From Coq Require Import Lia.
From stdpp Require Import prelude gmap.
From Verif Require Import Bytes Codec Model Spec Client Locks LockProofs Demo.

(** A stream asks for the number of keys and of children of the root; a put asks for the
    root in between. *)
Lemma stream_and_put : exists fuel l ms k v,
  let y := lsys_run ms (lsys_start fuel [(0, CTraverse default_config, []); (0, CPut k v, [])] (world_after fuel l)) in
  history fuel 2 l /\ usable l 0 /\ call_ok (CPut k v) /\ stuck y /\ waits_for_itself y 0 /\ forall js, lsys_run (map LPoll js) y = y.
Proof.
  exists 60, [EvCall 0 (CPut (kb 1) None) []], (repeat (LPoll 0) 12 ++ repeat (LPoll 1) 100 ++ repeat (LPoll 0) 3), (kb 2), None.
  cbv zeta. match goal with |- context [stuck ?y] => assert (stuck y) as Hs by (apply stuck_b_spec; by vm_compute) end.
  split_and!; [case_hyp|case_hyp|case_hyp|exact Hs| |intros js; by apply stuck_stays].
  split; [apply blocked_b_spec; by vm_compute|].
  exists (Req 0 0 (LNode 1) MRead), [Req 1 0 (LNode 1) MWrite; Req 0 0 (LNode 1) MRead], (Req 0 0 (LNode 1) MRead). split; [by vm_compute|].
  split; [cbn; auto|done].
Qed.

(** A stream that has asked the storage for a block, and is not polled while it waits for the
    answer, keeps the lock of the root. *)
Lemma stream_and_put_paused : exists fuel l ms k v,
  let y := lsys_run ms (lsys_start fuel [(1, CTraverse default_config, []); (1, CPut k v, [])] (world_after fuel l)) in
  history fuel 2 l /\ usable l 1 /\ call_ok (CPut k v) /\ blocked y 1 /\ ~ blocked y 0 /\ forall n, lsys_run (repeat (LPoll 1) n) y = y.
Proof.
  exists 60, [EvCall 0 (CPut (kb 1) None) []; EvCall 0 (CPut (kb 2) None) []], (repeat (LPoll 0) 33 ++ repeat (LPoll 1) 100), (kb 3), None.
  cbv zeta. match goal with |- context [blocked ?y 1] => assert (blocked y 1) as Hs by (apply blocked_b_spec; by vm_compute) end.
  split_and!; [case_hyp|case_hyp|case_hyp|exact Hs| |intros js; by apply blocked_stays].
  rewrite <- blocked_b_spec. by vm_compute.
Qed.

(** A core whose root has the same node twice. *)
Definition twin_core : list bytes :=
  [header_block None; encode_block [] (kb 1) None; encode_block [Level [2%N] [2; 1; 2; 1]%N; Level [1%N] []] (kb 2) None].
Lemma del_alone : exists fuel C ms k,
  let y := lsys_run ms (lsys_start fuel [(0, CDel k, [])] (new_world C)) in
  stuck y /\ waits_for_itself y 0 /\ forall js, lsys_run (map LPoll js) y = y.
Proof.
  exists 60, twin_core, (repeat (LPoll 0) 200), (kb 1).
  cbv zeta. match goal with |- context [stuck ?y] => assert (stuck y) as Hs by (apply stuck_b_spec; by vm_compute) end.
  split_and!; [exact Hs| |intros js; by apply stuck_stays].
  split; [apply blocked_b_spec; by vm_compute|].
  eexists (Req 0 0 (LKids 1) MWrite), _, (Req 0 0 (LKids 1) MWrite). split; [by vm_compute|]. split; [cbn; auto|done].
Qed.
