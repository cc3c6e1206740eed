(** The foreign interfaces tell what the Rust methods tell. *)
From Coq.Strings Require Import Byte String.
From stdpp Require Import prelude gmap strings pretty.
From Verif Require Import Bytes Codec Model Spec Client Subs Wp Ffi.

Lemma ffi_same fuel i c o w : same_answer (fst (do_call fuel i (rust_call c) o w)) (fst (do_ffi fuel i c o w)) /\
  snd (do_call fuel i (rust_call c) o w) = snd (do_ffi fuel i c o w).
Proof.
  unfold do_call, do_ffi, do_prog, api, lowered. rewrite !run_bind, !run_catch.
  destruct c as [k|k v|k|]; cbn [rust_call call_prog ffi_prog]; rewrite !run_bind.
  - destruct (run (tree_get fuel k) (view w i o)) as [[[[q v]|]|[e| |]] s]; cbn; split; try done; by eexists.
  - destruct (run (tree_put fuel k v) (view w i o)) as [[[a b]|[e| |]] s]; cbn; split; try done; by eexists.
  - destruct (run (tree_del fuel k) (view w i o)) as [[r|[e| |]] s]; cbn; split; try done; by eexists.
  - destruct (run version (view w i o)) as [[r|[e| |]] s]; cbn; split; try done; by eexists.
Qed.

Lemma ffi_sub_same fuel i pre sep c o w :
  same_answer (fst (do_sub fuel i pre sep (rust_sub_call c) o w)) (fst (do_ffi_sub fuel i (ffi_make_sub pre sep) c o w)) /\
  snd (do_sub fuel i pre sep (rust_sub_call c) o w) = snd (do_ffi_sub fuel i (ffi_make_sub pre sep) c o w).
Proof.
  unfold do_sub, do_ffi_sub, do_prog, sub_api, lowered, ffi_make_sub. rewrite !run_bind, !run_catch.
  destruct c as [k|k v|k]; cbn [rust_sub_call sub_prog ffi_sub_prog fs_prefix fs_sep]; rewrite !run_bind.
  - destruct (run (sub_get fuel pre sep k) (view w i o)) as [[[[q v]|]|[e| |]] s]; cbn; split; try done; by eexists.
  - destruct (run (sub_put fuel pre sep k v) (view w i o)) as [[[a b]|[e| |]] s]; cbn; split; try done; by eexists.
  - destruct (run (sub_del fuel pre sep k) (view w i o)) as [[r|[e| |]] s]; cbn; split; try done; by eexists.
Qed.

(** ** No information is lost *)
Lemma string_app_inj_l (a b c : string) : a +:+ b = a +:+ c -> b = c.
Proof. induction a as [|x a IH]; cbn; [done|]. intros [= H]. auto. Qed.

Lemma string_snoc_inj (a b : string) x : a +:+ String x EmptyString = b +:+ String x EmptyString -> a = b.
Proof.
  revert b. induction a as [|y a IH]; intros [|z b]; cbn; [done| | |].
  - intros [= -> H]. by destruct b.
  - intros [= -> H]. by destruct a.
  - intros [= -> H]. f_equal. auto.
Qed.

Lemma message_inj e : forall e', message e = message e' -> e = e'.
Proof.
  induction e as [| |q| | |e IH|e IH|]; intros [| |q'| | |e'|e'|] H; try done; try discriminate H.
  - cbn [message] in H. apply string_app_inj_l, string_snoc_inj in H. f_equal. by apply (inj pretty).
  - cbn [message] in H. apply string_app_inj_l in H. f_equal. by apply IH.
  - cbn [message] in H. apply string_app_inj_l in H. f_equal. by apply IH.
Qed.

Lemma foreign_inj r r' f : foreign r = Some f -> foreign r' = Some f -> r = r'.
Proof.
  intros H H'. destruct r as [[[q v]|]| | | | | | | |]; try done; cbn in H; injection H as <-;
    destruct r' as [[[q' v']|]| | | | | | | |]; try done; cbn in H'; try by injection H' as -> ->.
  all: try (by injection H' as ->).
  injection H' as _ H'. f_equal. symmetry. by apply message_inj.
Qed.

(** ** C36 *)
Lemma hb_get_found fuel i k o w q v w1 : do_call fuel i (CGet k) o w = (inl (RGet (Some (q, Some v))), w1) ->
  hb_get fuel i k o w = (0, [Callback 0 q v], w1).
Proof.
  unfold do_call, hb_get, do_prog, api, hb_get_task. cbn [call_prog]. rewrite !run_bind, !run_catch, run_bind.
  destruct (run (tree_get fuel k) (view w i o)) as [[[[q' [v'|]]|]|[e| |]] s]; cbn; try done. by intros [= -> -> <-].
Qed.

(** The names and messages of error.rs:17-56. *)
Lemma messages :
  let shown e name text := foreign (RErr e) = Some (FError (name, text)) in
  shown EHypercore "HypercoreError" "There was an error in the underlying Hypercore" /\
  shown EDecode "DecodeError" "There was an error decoding Hypercore data" /\
  (forall q, shown (ENoBlockAtSeq q) "NoBlockAtSeqError" ("No block at seq  `" +:+ pretty q +:+ "`")) /\
  shown ENoRoot "NoRootError" "The tree has no root so this operation failed" /\
  shown EHeaderAlreadyExists "HeaderAlreadyExists" "The tree already has a header" /\
  shown EKeyFromUtf8 "KeyFromUtf8Error" "There was an error decoding a key" /\
  forall e name text, shown e name text ->
    shown (EGetChildInTraverse e) "GetChildInTraverseError" ("Could not traverse child node. Got error: " +:+ text) /\
    shown (EBuildIterator e) "BuildIteratorInTraverseError" ("There was an error building the iterator to traverse a node. Got error: " +:+ text).
Proof. cbv zeta. do 6 (split; [done|]). intros e name text He. injection He as <- <-. done. Qed.
