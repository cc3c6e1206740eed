(** Facts about the byte-string order and sorted lists. *)
From Coq.Strings Require Import Byte.
From Coq Require Import Lia Sorting.Sorted.
From stdpp Require Import prelude.
From Verif Require Import Bytes.

Lemma to_N_inj a b : Byte.to_N a = Byte.to_N b -> a = b.
Proof.
  intros H. pose proof (Byte.of_to_N a) as Ha. rewrite H, Byte.of_to_N in Ha. congruence.
Qed.

Lemma bytes_cmp_refl a : bytes_cmp a a = Eq.
Proof. induction a as [|x a IH]; simpl; [done|]. by rewrite N.compare_refl. Qed.

Lemma bytes_cmp_eq a b : bytes_cmp a b = Eq <-> a = b.
Proof.
  split; [|intros ->; apply bytes_cmp_refl].
  revert b. induction a as [|x a IH]; intros [|y b]; simpl; try done.
  destruct (N.compare_spec (Byte.to_N x) (Byte.to_N y)) as [H|H|H]; try done.
  intros Hc. f_equal; [by apply to_N_inj|by apply IH].
Qed.

Lemma bytes_cmp_antisym a b : bytes_cmp b a = CompOpp (bytes_cmp a b).
Proof.
  revert b. induction a as [|x a IH]; intros [|y b]; simpl; try done.
  rewrite N.compare_antisym. destruct (N.compare (Byte.to_N x) (Byte.to_N y)); simpl; auto.
Qed.

Definition blt (a b : bytes) : Prop := bytes_cmp a b = Lt.

Lemma bytes_cmp_gt a b : bytes_cmp a b = Gt <-> blt b a.
Proof. unfold blt. rewrite (bytes_cmp_antisym a b). destruct (bytes_cmp a b); simpl; split; congruence. Qed.

Lemma blt_irrefl a : ~ blt a a.
Proof. unfold blt. by rewrite bytes_cmp_refl. Qed.

Lemma blt_trans a b c : blt a b -> blt b c -> blt a c.
Proof.
  unfold blt. revert b c. induction a as [|x a IH]; intros [|y b] [|z c]; simpl; try done.
  destruct (N.compare_spec (Byte.to_N x) (Byte.to_N y)) as [H|H|H]; try done;
  destruct (N.compare_spec (Byte.to_N y) (Byte.to_N z)) as [H'|H'|H']; try done.
  - rewrite H, H', N.compare_refl. apply IH.
  - intros _ _. rewrite H. by apply N.compare_lt_iff in H' as ->.
  - intros _ _. rewrite <-H'. by apply N.compare_lt_iff in H as ->.
  - intros _ _. assert (Byte.to_N x < Byte.to_N z)%N as Hz by lia.
    by apply N.compare_lt_iff in Hz as ->.
Qed.

Lemma blt_total a b : blt a b \/ a = b \/ blt b a.
Proof.
  destruct (bytes_cmp a b) eqn:E; [|by left|].
  - right. left. by apply bytes_cmp_eq.
  - right. right. by apply bytes_cmp_gt.
Qed.

Lemma blt_asym a b : blt a b -> ~ blt b a.
Proof. intros H1 H2. exact (blt_irrefl _ (blt_trans _ _ _ H1 H2)). Qed.

Lemma bytes_eqb_eq a b : bytes_eqb a b = true <-> a = b.
Proof.
  unfold bytes_eqb. rewrite <-bytes_cmp_eq. destruct (bytes_cmp a b); split; congruence.
Qed.
Lemma bytes_ltb_lt a b : bytes_ltb a b = true <-> blt a b.
Proof. unfold bytes_ltb, blt. destruct (bytes_cmp a b); split; congruence. Qed.

Lemma limit_eq_cmp l k : limit_eq l k = true <-> limit_cmp l k = Eq.
Proof. destruct l; simpl; try done. unfold bytes_eqb. destruct (bytes_cmp _ _); done. Qed.
Lemma limit_lt_cmp l k : limit_lt l k = true <-> limit_cmp l k = Lt.
Proof. unfold limit_lt. destruct (limit_cmp l k); done. Qed.

(** The comparison with a search key is monotone in the key. *)
Lemma limit_cmp_mono_lt l a b : limit_cmp l a <> Gt -> blt a b -> limit_cmp l b = Lt.
Proof.
  destruct l as [k| |]; simpl; try done. intros Hn Hab.
  destruct (bytes_cmp k a) eqn:E; [| |done].
  - apply bytes_cmp_eq in E as ->. done.
  - by eapply blt_trans.
Qed.
Lemma limit_cmp_mono_gt l a b : limit_cmp l b <> Lt -> blt a b -> limit_cmp l a = Gt.
Proof.
  destruct l as [k| |]; simpl; try done. intros Hn Hab.
  destruct (bytes_cmp k b) eqn:E; [|done|].
  - apply bytes_cmp_eq in E as ->. by apply bytes_cmp_gt.
  - apply bytes_cmp_gt in E. apply bytes_cmp_gt. by eapply blt_trans.
Qed.

(** ** Strictly sorted lists *)
Notation bsorted := (StronglySorted blt).

Lemma StronglySorted_app {A} (R : A -> A -> Prop) l1 l2 :
  StronglySorted R (l1 ++ l2) <->
  StronglySorted R l1 /\ StronglySorted R l2 /\ (forall x y, x ∈ l1 -> y ∈ l2 -> R x y).
Proof.
  induction l1 as [|a l1 IH]; simpl.
  - split; [|by intros (_ & ? & _)]. intros H. split; [constructor|]. split; [done|].
    intros x y Hx. by apply elem_of_nil in Hx.
  - split.
    + intros H. apply StronglySorted_inv in H as [H1 H2]. apply IH in H1 as (H1 & H3 & H4).
      rewrite Forall_app in H2. destruct H2 as [H2 H2'].
      split; [by constructor|]. split; [done|].
      intros x y Hx Hy. apply elem_of_cons in Hx as [->|Hx]; [|by apply H4].
      rewrite Forall_forall in H2'. by apply H2'.
    + intros (H1 & H2 & H3). apply StronglySorted_inv in H1 as [H1 H1'].
      constructor.
      * apply IH. split; [done|]. split; [done|]. intros x y Hx Hy. apply H3; [|done].
        by right.
      * apply Forall_app. split; [done|]. apply Forall_forall. intros y Hy.
        apply H3; [left|done].
Qed.

Lemma StronglySorted_cons {A} (R : A -> A -> Prop) a l :
  StronglySorted R (a :: l) <-> StronglySorted R l /\ (forall y, y ∈ l -> R a y).
Proof.
  split.
  - intros H. apply StronglySorted_inv in H as [H1 H2]. split; [done|].
    by apply Forall_forall.
  - intros [H1 H2]. constructor; [done|]. by apply Forall_forall.
Qed.

Lemma StronglySorted_sublist {A} (R : A -> A -> Prop) l1 l2 :
  sublist l1 l2 -> StronglySorted R l2 -> StronglySorted R l1.
Proof.
  induction 1 as [|x l1 l2 Hs IH|x l1 l2 Hs IH]; intros H2; [constructor| |].
  - apply StronglySorted_cons in H2 as [H2 H3]. apply StronglySorted_cons.
    split; [by apply IH|]. intros y Hy. apply H3. by eapply elem_of_submseteq, sublist_submseteq.
  - apply StronglySorted_cons in H2 as [H2 _]. by apply IH.
Qed.

Lemma bsorted_NoDup l : bsorted l -> NoDup l.
Proof.
  induction l as [|a l IH]; intros H; [constructor|].
  apply StronglySorted_cons in H as [H1 H2]. constructor; [|by apply IH].
  intros Ha. by apply (blt_irrefl a), H2.
Qed.
