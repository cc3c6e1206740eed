(** A concrete history, used in the examples beside the theorems. *)
From Coq.Strings Require Import Byte.
From Coq Require Import Lia.
From stdpp Require Import prelude gmap.
From Verif Require Import Bytes Codec Model Spec Client Threads.

Definition kb (n : nat) : bytes := [byte_of (N.of_nat n)].

(** 24 puts through two handles (a root split and leaf splits), a put whose append
    fails after taking effect, that handle opened again, a put whose append fails,
    reads under faults, deletions that rotate and merge, refused writes. *)
Definition demo_calls : list event :=
  map (fun n => EvCall (n mod 2) (CPut (kb (7 * n mod 24)) (Some (kb n))) []) (seq 0 24) ++
  [ EvCall 1 (CPut (kb 50) None) [FNone; FNone; FErrAfter];
    EvReopen 1;
    EvCall 2 (CPut (kb 60) (Some [])) [FNone; FErr];
    EvCall 0 (CGet (kb 4)) [FErr];
    EvCall 3 (CGet (kb 4)) [FMissing];
    EvCall 3 (CTraverse (Config NegInf true PosInf true false)) [FNone; FNone; FNone; FErr];
    EvCall 0 (CDel (kb 3)) [];
    EvCall 1 (CDel (kb 10)) [];
    EvCall 1 (CDel (kb 11)) [];
    EvCall 0 (CDel (kb 12)) [];
    EvCall 3 (CPutCas (kb 5) (Some (kb 9)) (fun _ _ => false)) [];
    EvCall 3 (CPutCas (kb 5) (Some (kb 9)) (fun old _ => bool_decide (is_Some old))) [];
    EvCall 3 (CDelCas (kb 6) (fun e => (kv_seq e =? 1)%nat)) [];
    EvCall 3 (CHeader None) [] ].
(** Then calls that are given up: two reads, reads that overlap, and a put, which
    leaves its handle unusable; and a put during which its handle is read. *)
Definition demo : list event := demo_calls ++
  [ EvDrop 3 (CGet (kb 8)) [] 9;
    EvReads [(0, CTraverse default_config, []); (3, CGet (kb 9), [FReadErr]); (0, CGet (kb 8), [])] (concat (repeat [0; 1; 2; 2] 8));
    EvDrop 0 (CTraverse default_config) [FNone; FMissing] 30;
    EvDrop 4 (CPut (kb 70) None) [] 30;
    EvBusy 3 (CPut (kb 13) None) [] [(3, CGet (kb 13), []); (3, CTraverse default_config, [FNone; FReadErr]); (0, CGet (kb 2), [])] (concat (repeat [1; 0; 0; 2; 3] 16)) ].


(** Deciding the hypotheses of a concrete history. *)
Definition fault_b (f : fault) : bool := match f with FNone => false | _ => true end.
Definition lost_b (f : fault) : bool := match f with FErr | FErrAfter => true | _ => false end.
Definition spoils_b (c : call) (o : list fault) : bool :=
  match c with
  | CPut _ _ | CPutCas _ _ _ => existsb lost_b o
  | CDel _ | CDelCas _ _ => existsb fault_b o
  | _ => false
  end.
Definition reads_b (c : call) : bool :=
  match c with CGet _ | CVersion | CTraverse _ => true | _ => false end.
Definition uses_b (e : event) : list nat :=
  match e with
  | EvCall i _ _ | EvReopen i | EvDrop i _ _ _ => [i]
  | EvReads xs _ => map (fun x => fst (fst x)) xs
  | EvBusy i _ _ xs _ => i :: map (fun x => fst (fst x)) xs
  end.
Definition bad_b (e : event) (bad : list nat) : list nat :=
  match e with
  | EvCall i c o | EvBusy i c o _ _ => if spoils_b c o then i :: bad else bad
  | EvReopen i => List.filter (fun j => negb (j =? i)%nat) bad
  | EvDrop i c _ _ => if reads_b c then bad else i :: bad
  | EvReads _ _ => bad
  end.
Fixpoint trusted_b (bad : list nat) (l : list event) : bool :=
  match l with
  | [] => true
  | e :: l' => match e with EvReopen _ => true | _ => forallb (fun i => negb (existsb (Nat.eqb i) bad)) (uses_b e) end && trusted_b (bad_b e bad) l'
  end.
Fixpoint end_b (bad : list nat) (l : list event) : list nat :=
  match l with [] => bad | e :: l' => end_b (bad_b e bad) l' end.
Definition small (b : bytes) : bool := (N.of_nat (length b) <? 2 ^ 64)%N.
Definition call_b (c : call) : bool :=
  match c with
  | CPut k v | CPutCas k v _ => small k && match v with None => true | Some x => small x end
  | CDel k | CDelCas k _ => small k
  | CTraverse conf =>
      t_rev conf || match t_min conf with Finite a => negb (t_min_incl conf) || below_max conf a | _ => true end
  | CHeader (Some m) => (N.of_nat (length (default [] (md_content_feed m)) + length (default [] (md_user_data m))) <? 2 ^ 63)%N
  | _ => true
  end.
Definition puts_b (c : call) : bool := match c with CPut _ _ | CPutCas _ _ _ => true | _ => false end.
Definition ok_b (e : event) : bool :=
  match e with
  | EvCall _ c _ | EvDrop _ c _ _ => call_b c
  | EvReopen _ => true
  | EvReads xs _ => forallb (fun x => reads_b (snd (fst x)) && call_b (snd (fst x))) xs
  | EvBusy _ c _ xs _ => puts_b c && call_b c && forallb (fun x => reads_b (snd (fst x)) && call_b (snd (fst x))) xs
  end.

Lemma existsb_eqb i l : existsb (Nat.eqb i) l = true <-> i ∈ l.
Proof.
  rewrite existsb_exists. split.
  - intros (x & Hx & ->%Nat.eqb_eq). by apply elem_of_list_In.
  - intros H. exists i. split; [by apply elem_of_list_In|]. apply Nat.eqb_refl.
Qed.
Lemma has_fault_b o : has_fault o <-> existsb fault_b o = true.
Proof.
  unfold has_fault. induction o as [|f o IH]; [split; [by intros H%Exists_nil|done]|].
  rewrite Exists_cons. cbn. rewrite orb_true_iff, <-IH. destruct f; cbn; intuition congruence.
Qed.
Lemma append_fault_b o : append_fault o <-> existsb lost_b o = true.
Proof.
  unfold append_fault. induction o as [|f o IH]; [split; [by intros H%Exists_nil|done]|].
  rewrite Exists_cons. cbn. rewrite orb_true_iff, <-IH. destruct f; cbn; intuition congruence.
Qed.
Lemma spoils_ok c o : spoils c o <-> spoils_b c o = true.
Proof. destruct c; cbn; by rewrite ?append_fault_b, ?has_fault_b. Qed.
Lemma reads_ok c : reads_only c <-> reads_b c = true.
Proof. by destruct c. Qed.
Lemma uses_ok e i : uses e i <-> i ∈ uses_b e.
Proof. destruct e; cbn; [rewrite elem_of_list_singleton; by split..|done|]. rewrite elem_of_cons. by split; intros [->|?]; [left|right|left|right]. Qed.
Lemma bad_ok e P bad : (forall j, P j <-> j ∈ bad) -> forall j, bad_after e P j <-> j ∈ bad_b e bad.
Proof.
  intros H j. destruct e as [i c o|i|i c o k|xs sched|i c o xs sched]; cbn; [| | |apply H|].
  - rewrite spoils_ok, H. destruct (spoils_b c o); cbn; [|intuition congruence].
    rewrite elem_of_cons. tauto.
  - rewrite H, !elem_of_list_In, List.filter_In. rewrite negb_true_iff, Nat.eqb_neq. done.
  - rewrite reads_ok, H. destruct (reads_b c); cbn; [intuition congruence|]. rewrite elem_of_cons. intuition congruence.
  - rewrite spoils_ok, H. destruct (spoils_b c o); cbn; [|intuition congruence].
    rewrite elem_of_cons. tauto.
Qed.
Lemma trusted_ok l : forall P bad, (forall j, P j <-> j ∈ bad) -> trusted_b bad l = true -> trusted P l.
Proof.
  induction l as [|e l IH]; intros P bad H Hb; [done|]. cbn in Hb. apply andb_true_iff in Hb as [H1 H2]. split.
  - assert (forallb (fun i => negb (existsb (Nat.eqb i) bad)) (uses_b e) = true -> forall i, uses e i -> ~ P i) as Hu.
    { intros Ha i Hi. rewrite uses_ok in Hi. rewrite forallb_forall in Ha. apply elem_of_list_In, Ha in Hi.
      rewrite H, <-existsb_eqb. by destruct (existsb _ _). }
    by destruct e; [apply Hu|done|apply Hu|apply Hu|apply Hu].
  - eapply IH; [|exact H2]. by apply bad_ok.
Qed.
Lemma end_ok l : forall P bad, (forall j, P j <-> j ∈ bad) -> forall j, bad_end l P j <-> j ∈ end_b bad l.
Proof. induction l as [|e l IH]; intros P bad H; [done|]. cbn. apply IH. by apply bad_ok. Qed.
Lemma small_ok b : small b = true -> (N.of_nat (length b) < 2 ^ 64)%N.
Proof. apply N.ltb_lt. Qed.
Lemma call_b_ok c : call_b c = true -> call_ok c.
Proof.
  destruct c as [k|k v|k v f|k|k f| |md|conf]; cbn; try done.
  - intros [H1 H2]%andb_true_iff. split; [by apply small_ok|]. destruct v; [by apply small_ok|done].
  - intros [H1 H2]%andb_true_iff. split; [by apply small_ok|]. destruct v; [by apply small_ok|done].
  - apply small_ok.
  - apply small_ok.
  - destruct md as [m|]; [apply N.ltb_lt|done].
  - unfold bounds_ok. intros [H|H]%orb_true_iff; [by left|right]. destruct (t_min conf); [|done|done].
    apply orb_true_iff in H as [H|H]; [|done]. by destruct (t_min_incl conf).
Qed.
Lemma ok_ok e : ok_b e = true -> event_ok e.
Proof.
  assert (forall xs : list (nat * call * list fault), forallb (fun x => reads_b (snd (fst x)) && call_b (snd (fst x))) xs = true ->
    Forall (fun x => reads_only (snd (fst x)) /\ call_ok (snd (fst x))) xs) as Hxs.
  { intros xs H. apply Forall_forall. intros x Hx%elem_of_list_In. rewrite forallb_forall in H.
    apply H, andb_true_iff in Hx as [H1 H2]. split; [by apply reads_ok|by apply call_b_ok]. }
  destruct e as [i c o|i|i c o k|xs sched|i c o xs sched]; cbn; [apply call_b_ok|done|apply call_b_ok|apply Hxs|].
  intros [[H1 H2]%andb_true_iff H3]%andb_true_iff. split_and!; [by destruct c|by apply call_b_ok|by apply Hxs].
Qed.
Definition history_b (fuel n : nat) (l : list event) : bool :=
  trusted_b [] l && forallb ok_b l && (length l + n <? fuel)%nat && (N.of_nat (length l + n) + 1 <? 2 ^ 50)%N.
Lemma nobody_nil j : nobody j <-> j ∈ [].
Proof. unfold nobody. by rewrite elem_of_nil. Qed.
Lemma history_ok fuel n l : history_b fuel n l = true -> history fuel n l.
Proof.
  unfold history_b. intros [[[H1 H2]%andb_true_iff H3]%andb_true_iff H4]%andb_true_iff. split_and!.
  - eapply trusted_ok; [apply nobody_nil|done].
  - apply Forall_forall. intros e He. apply ok_ok. rewrite forallb_forall in H2. apply H2. by apply elem_of_list_In.
  - by apply Nat.ltb_lt.
  - by apply N.ltb_lt.
Qed.
Lemma usable_ok l i : existsb (Nat.eqb i) (end_b [] l) = false -> usable l i.
Proof. intros H Hb. apply (end_ok l nobody [] nobody_nil), existsb_eqb in Hb. congruence. Qed.
Definition clean_b (e : event) : bool :=
  match e with EvCall _ _ o | EvBusy _ _ o _ _ => negb (existsb fault_b o) | EvDrop _ c _ _ => reads_b c | EvReopen _ | EvReads _ _ => true end.
Lemma clean_ok l : forallb clean_b l = true -> Forall clean l.
Proof.
  intros H. apply Forall_forall. intros e He. rewrite forallb_forall in H. specialize (H e (proj1 (elem_of_list_In _ _) He)).
  destruct e as [i c o|i|i c o k|xs sched|i c o xs sched]; [|done| |done|]; cbn in *; [|by apply reads_ok|]; rewrite has_fault_b; by destruct (existsb _ _).
Qed.
Lemma events_ok l : forallb ok_b l = true -> Forall event_ok l.
Proof. intros H. apply Forall_forall. intros e He. apply ok_ok. rewrite forallb_forall in H. apply H. by apply elem_of_list_In. Qed.

(** The clean part of [demo]. *)
Definition demo_clean : list event := List.filter clean_b demo.
Notation demo_world := (world_after 60 demo).

(** Concurrent reads, and writes beside them. *)
Definition demo_readers : list (nat * call * list fault) :=
  [(0, CGet (kb 4), []); (0, CTraverse default_config, []); (1, CGet (kb 7), [FErr]); (0, CGet (kb 7), [])].
Definition demo_turns : list move := concat (repeat [MThread 0; MThread 1; MThread 2; MThread 3] 200).
Definition demo_writes : list event :=
  [EvReopen 2; EvCall 2 (CPut (kb 4) None) []; EvCall 3 (CDel (kb 8)) []; EvCall 2 (CPut (kb 30) None) [FErr]].
Definition demo_snapshots : list (nat * call * list fault) := [(0, CGet (kb 4), []); (1, CTraverse default_config, []); (0, CGet (kb 4), [])].

Ltac case_hyp :=
  lazymatch goal with
  | |- history _ _ _ => apply history_ok; vm_compute; reflexivity
  | |- usable _ _ => apply usable_ok; vm_compute; reflexivity
  | |- trusted _ _ => eapply trusted_ok; [apply end_ok, nobody_nil|vm_compute; reflexivity]
  | |- call_ok ?c => apply (ok_ok (EvCall 0 c [])); vm_compute; reflexivity
  | |- bounds_ok ?c => apply (ok_ok (EvCall 0 (CTraverse c) [])); vm_compute; reflexivity
  | |- Forall clean _ => apply clean_ok; vm_compute; reflexivity
  | |- Forall event_ok _ => apply events_ok; vm_compute; reflexivity
  | |- reads_only _ => exact I
  | |- has_fault _ => apply has_fault_b; vm_compute; reflexivity
  | |- ~ append_fault _ => rewrite append_fault_b; vm_compute; discriminate
  | |- ~ reads_only _ => exact (fun x => x)
  | |- ~ stored_one _ => exact (fun x => x)
  | |- _ <> _ => vm_compute; discriminate
  | |- _ = _ => vm_compute; reflexivity
  | |- (_ <= _)%nat => apply Nat.leb_le; vm_compute; reflexivity
  | |- (_ < _)%nat => apply Nat.ltb_lt; vm_compute; reflexivity
  | |- (_ < _)%N => apply N.ltb_lt; vm_compute; reflexivity
  end.
(** An answer, whatever the state after it. *)
Lemma some_after {A B} (p : A * B) a : fst p = a -> exists b, p = (a, b).
Proof. intros <-. exists (snd p). apply surjective_pairing. Qed.
Ltac a_case := cbv zeta; split_and?; case_hyp.
