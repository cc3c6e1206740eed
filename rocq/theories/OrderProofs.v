(** The order used by the code is the one of the specification. *)
From Coq.Strings Require Import Byte.
From Coq Require Import Lia.
From stdpp Require Import prelude.
From Verif Require Import Bytes Order Spec.

Lemma key_lt_blt a b : key_lt a b <-> blt a b.
Proof.
  unfold blt. split.
  - induction 1 as [| x y a b H | x a b H IH]; simpl; [done| |].
    + by apply N.compare_lt_iff in H as ->.
    + by rewrite N.compare_refl.
  - revert b. induction a as [|x a IH]; intros [|y b]; simpl; try done; [by constructor|].
    destruct (N.compare (Byte.to_N x) (Byte.to_N y)) eqn:E; try done.
    + apply N.compare_eq_iff in E. apply to_N_inj in E. subst y. intros H. apply lt_tail. by apply IH.
    + intros _. apply lt_head. by apply N.compare_lt_iff.
Qed.

Lemma key_order :
  (forall a b, (limit_cmp (Finite a) b = Lt <-> key_lt a b) /\ (limit_cmp (Finite a) b = Eq <-> a = b) /\
               (limit_cmp (Finite a) b = Gt <-> key_lt b a)) /\
  (forall a, ~ key_lt a a) /\
  (forall a b c, key_lt a b -> key_lt b c -> key_lt a c) /\
  (forall a b, key_lt a b \/ a = b \/ key_lt b a) /\
  (forall a, a <> [] -> key_lt [] a) /\
  (forall k, limit_cmp NegInf k = Lt /\ limit_cmp PosInf k = Gt) /\
  (forall l k, limit_eq l k = true <-> limit_cmp l k = Eq) /\
  (forall l k, limit_lt l k = true <-> limit_cmp l k = Lt).
Proof.
  split_and!.
  - intros a b. rewrite !key_lt_blt. simpl. split_and!; [done|apply bytes_cmp_eq|apply bytes_cmp_gt].
  - intros a. rewrite key_lt_blt. apply blt_irrefl.
  - intros a b c. rewrite !key_lt_blt. apply blt_trans.
  - intros a b. rewrite !key_lt_blt. apply blt_total.
  - intros [|x a] H; [done|constructor].
  - done.
  - apply limit_eq_cmp.
  - apply limit_lt_cmp.
Qed.
