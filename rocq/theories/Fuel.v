(** The bound on the loops of the model: a call that ends under one bound ends in the same way
    under every larger one, on any core whatever; the binary search never runs out. *)
From Coq.Strings Require Import Byte.
From stdpp Require Import prelude gmap.
From Verif Require Import Bytes Codec Model Spec Client Subs Ffi.

(** [q] is [p] except where [p] has run out of fuel. *)
Inductive upto {A} : prog A -> prog A -> Prop :=
| up_div q : upto (Stop SDiverge) q
| up_ret a : upto (Ret a) (Ret a)
| up_stop x : upto (Stop x) (Stop x)
| up_len k k' : (forall v, upto (k v) (k' v)) -> upto (CoreLen k) (CoreLen k')
| up_get q k k' : (forall v, upto (k v) (k' v)) -> upto (CoreGet q k) (CoreGet q k')
| up_app b k k' : (forall v, upto (k v) (k' v)) -> upto (CoreAppend b k) (CoreAppend b k')
| up_cget q k k' : (forall v, upto (k v) (k' v)) -> upto (CacheGet q k) (CacheGet q k')
| up_cput q e k k' : upto k k' -> upto (CachePut q e k) (CachePut q e k')
| up_new nd k k' : (forall v, upto (k v) (k' v)) -> upto (NodeNew nd k) (NodeNew nd k')
| up_nget n k k' : (forall v, upto (k v) (k' v)) -> upto (NodeGet n k) (NodeGet n k')
| up_upd n f k k' : (forall v, upto (k v) (k' v)) -> upto (NodeUpd n f k) (NodeUpd n f k').

Lemma upto_refl {A} (p : prog A) : upto p p.
Proof. induction p; constructor; auto. Qed.
Lemma upto_bind {A B} (p p' : prog A) (f f' : A -> prog B) :
  upto p p' -> (forall a, upto (f a) (f' a)) -> upto (pbind p f) (pbind p' f').
Proof. intros H Hf. induction H; simpl; try (by constructor); try apply Hf. Qed.
Lemma upto_catch {A} (p p' : prog A) : upto p p' -> upto (catch p) (catch p').
Proof. intros H. induction H; simpl; try (by constructor). destruct x; apply upto_refl. Qed.

Lemma upto_run {A} (p p' : prog A) : upto p p' -> forall s, fst (run p s) <> inr SDiverge -> run p' s = run p s.
Proof.
  intros H. induction H; intros s HD; simpl in *; try done; auto.
  - destruct (exec_get q s) as [r s']. auto.
  - destruct (exec_append b s) as [r s']. auto.
  - destruct (heap s !! n); auto.
  - destruct (heap s !! n); [|done]. destruct (f n0); auto.
Qed.

Ltac up :=
  repeat first
    [ apply upto_refl
    | apply upto_bind; [|intros ?]
    | apply upto_catch
    | progress (repeat case_match; simplify_eq)
    | solve [eauto] ].

Lemma nearest_upto f f' : (f <= f')%nat -> forall n k acc, upto (nearest_loop f n k acc) (nearest_loop f' n k acc).
Proof.
  revert f'. induction f as [|f IH]; intros f' Hf n k acc; [constructor|].
  destruct f' as [|f']; [lia|]. cbn [nearest_loop trav node_height]. assert (f <= f')%nat as Hf' by lia. specialize (IH f' Hf').
  apply upto_bind; [apply upto_refl|intros [m i]]. destruct m; [apply upto_refl|].
  apply upto_bind; [apply upto_refl|intros []]; [apply upto_refl|].
  apply upto_bind; [apply upto_refl|intros c]. apply IH.
Qed.

Lemma trav_loop_upto rec rec' conf n idxs :
  (forall c, upto (rec c) (rec' c)) -> upto (trav_loop rec conf n idxs) (trav_loop rec' conf n idxs).
Proof.
  intros Hr. induction idxs as [|i idxs IH]; cbn [trav_loop]; [apply upto_refl|].
  destruct (Nat.even i).
  - apply upto_bind; [apply upto_refl|intros [c|e]].
    + apply upto_bind; [apply Hr|intros [its1 []]]; [apply upto_refl|].
      apply upto_bind; [apply IH|intros []; apply upto_refl].
    + apply upto_bind; [apply IH|intros []; apply upto_refl].
  - apply upto_bind; [apply upto_refl|intros [kv|e]].
    + destruct (in_bounds _ _); [|apply upto_refl].
      apply upto_bind; [apply IH|intros []; apply upto_refl].
    + apply upto_bind; [apply IH|intros []; apply upto_refl].
Qed.
Lemma trav_upto f f' conf : (f <= f')%nat -> forall n, upto (trav f conf n) (trav f' conf n).
Proof.
  revert f'. induction f as [|f IH]; intros f' Hf n; [constructor|].
  destruct f' as [|f']; [lia|]. cbn [nearest_loop trav node_height]. assert (f <= f')%nat as Hf' by lia. specialize (IH f' Hf').
  apply upto_bind; [apply upto_refl|intros nk]. apply upto_bind; [apply upto_refl|intros nc].
  apply upto_bind; [apply upto_refl|intros [it|e]]; [|apply upto_refl]. by apply trav_loop_upto.
Qed.
Lemma height_upto f f' : (f <= f')%nat -> forall n, upto (node_height f n) (node_height f' n).
Proof.
  revert f'. induction f as [|f IH]; intros f' Hf n; [constructor|].
  destruct f' as [|f']; [lia|]. cbn [nearest_loop trav node_height]. assert (f <= f')%nat as Hf' by lia. specialize (IH f' Hf').
  apply upto_bind; [apply upto_refl|intros []]; [apply upto_refl|].
  apply upto_bind; [apply upto_refl|intros c]. apply upto_bind; [apply IH|intros; apply upto_refl].
Qed.
Lemma each_loop_upto {A} (body body' : item * nid -> A -> prog A) rec rec' conf n idxs :
  (forall x a, upto (body x a) (body' x a)) -> (forall c a, upto (rec c a) (rec' c a)) ->
  forall acc, upto (each_loop body rec conf n idxs acc) (each_loop body' rec' conf n idxs acc).
Proof.
  intros Hb Hr. induction idxs as [|i idxs IH]; intros acc; cbn [each_loop]; [apply upto_refl|].
  destruct (Nat.even i).
  - apply upto_bind; [apply upto_refl|intros [c|e]].
    + apply upto_bind; [apply Hr|intros [acc' []]]; [apply upto_refl|apply IH].
    + apply upto_bind; [apply Hb|intros acc'; apply IH].
  - apply upto_bind; [apply upto_refl|intros [kv|e]].
    + destruct (in_bounds _ _); [|apply upto_refl]. apply upto_bind; [apply Hb|intros acc'; apply IH].
    + apply upto_bind; [apply Hb|intros acc'; apply IH].
Qed.
Lemma each_upto {A} (body body' : item * nid -> A -> prog A) f f' conf : (f <= f')%nat ->
  (forall x a, upto (body x a) (body' x a)) -> forall n acc, upto (each body f conf n acc) (each body' f' conf n acc).
Proof.
  intros Hf Hb. revert f' Hf. induction f as [|f IH]; intros f' Hf n acc; [constructor|].
  destruct f' as [|f']; [lia|]. cbn [each]. assert (f <= f')%nat as Hf' by lia. specialize (IH f' Hf').
  apply upto_bind; [apply upto_refl|intros nk]. apply upto_bind; [apply upto_refl|intros nc].
  apply upto_bind; [apply upto_refl|intros [it|e]]; [by apply each_loop_upto|].
  apply upto_bind; [apply Hb|intros; apply upto_refl].
Qed.
Lemma print_line_upto f f' h0 x out : (f <= f')%nat -> upto (print_line f h0 x out) (print_line f' h0 x out).
Proof. intros Hf. apply upto_bind; [by apply height_upto|intros h; apply upto_refl]. Qed.

Section mono.
  Context (f f' : nat) (Hf : (f <= f')%nat).

  Lemma get_upto k : upto (tree_get f k) (tree_get f' k).
  Proof. unfold tree_get, nearest_node. up. by apply nearest_upto. Qed.
  Lemma put_cas_upto k v c : upto (tree_put_cas f k v c) (tree_put_cas f' k v c).
  Proof.
    unfold tree_put_cas, nearest_node. apply upto_bind; [apply upto_refl|intros r].
    apply upto_bind; [apply upto_refl|intros s]. destruct r; [|apply upto_refl].
    apply upto_bind; [by apply nearest_upto|intros; apply upto_refl].
  Qed.
  Lemma put_upto k v : upto (tree_put f k v) (tree_put f' k v).
  Proof. apply upto_bind; [apply put_cas_upto|intros; apply upto_refl]. Qed.
  Lemma replace_upto p n i : upto (replace_removed f p n i) (replace_removed f' p n i).
  Proof.
    unfold replace_removed, nearest_node. apply upto_bind; [apply upto_refl|intros lc].
    apply upto_bind; [by apply nearest_upto|intros [? lp]].
    apply upto_bind; [apply upto_refl|intros [ln ?]]. apply upto_bind; [apply upto_refl|intros nl].
    apply upto_bind; [apply upto_refl|intros rc]. apply upto_bind; [by apply nearest_upto|intros; apply upto_refl].
  Qed.
  Lemma del_cas_upto k c : upto (tree_del_cas f k c) (tree_del_cas f' k c).
  Proof.
    unfold tree_del_cas, nearest_node. apply upto_bind; [apply upto_refl|intros r]. destruct r; [|apply upto_refl].
    apply upto_bind; [by apply nearest_upto|intros [m p]]. destruct m as [q|]; [|apply upto_refl].
    apply upto_bind; [apply upto_refl|intros [n1 i1]]. apply upto_bind; [apply upto_refl|intros kv].
    destruct (c kv); [|apply upto_refl].
    apply upto_bind; [apply upto_refl|intros v]. apply upto_bind; [apply upto_refl|intros [cur ci]].
    apply upto_bind; [apply upto_refl|intros ?]. apply upto_bind; [apply upto_refl|intros leaf].
    apply upto_bind; [destruct leaf; [apply upto_refl|apply replace_upto]|intros; apply upto_refl].
  Qed.
  Lemma del_upto k : upto (tree_del f k) (tree_del f' k).
  Proof. apply upto_bind; [apply del_cas_upto|intros; apply upto_refl]. Qed.
  Lemma traverse_upto conf : upto (tree_traverse f conf) (tree_traverse f' conf).
  Proof.
    apply upto_bind; [apply upto_refl|intros [n|]]; [|apply upto_refl].
    apply upto_bind; [by apply trav_upto|intros; apply upto_refl].
  Qed.
  Lemma print_upto : upto (tree_print f) (tree_print f').
  Proof.
    apply upto_bind; [apply upto_refl|intros [n|]]; [|apply upto_refl].
    apply upto_bind; [by apply height_upto|intros h].
    apply upto_bind; [apply each_upto; [done|intros; by apply print_line_upto]|intros; apply upto_refl].
  Qed.
  Lemma tree_height_upto : upto (tree_height f) (tree_height f').
  Proof. apply upto_bind; [apply upto_refl|intros [n|]]; [|apply upto_refl]. by apply height_upto. Qed.

  Lemma api_upto c : upto (api f c) (api f' c).
  Proof.
    apply upto_bind; [|intros; apply upto_refl]. apply upto_catch.
    destruct c; cbn [call_prog]; try (apply upto_refl); (apply upto_bind; [|intros; apply upto_refl]);
      auto using get_upto, put_upto, put_cas_upto, del_upto, del_cas_upto, traverse_upto.
  Qed.
  Lemma sub_upto pre sep c : upto (sub_api f pre sep c) (sub_api f' pre sep c).
  Proof.
    apply upto_bind; [|intros; apply upto_refl]. apply upto_catch.
    destruct c; cbn [sub_prog]; (apply upto_bind; [|intros; apply upto_refl]);
      unfold sub_get, sub_put, sub_put_cas, sub_del, sub_del_cas;
      auto using get_upto, put_upto, put_cas_upto, del_upto, del_cas_upto.
    apply upto_bind; [apply traverse_upto|intros; apply upto_refl].
  Qed.
End mono.

Lemma call_mono f f' i c o w :
  (f <= f')%nat -> fst (do_call f i c o w) <> inr SDiverge -> do_call f' i c o w = do_call f i c o w.
Proof.
  intros Hf HD. unfold do_call in *.
  rewrite (upto_run _ _ (api_upto f f' Hf c) (view w i o)); [done|]. by destruct (run _ _).
Qed.
Lemma sub_mono f f' i pre sep c o w :
  (f <= f')%nat -> fst (do_sub f i pre sep c o w) <> inr SDiverge -> do_sub f' i pre sep c o w = do_sub f i pre sep c o w.
Proof.
  intros Hf HD. unfold do_sub in *.
  rewrite (upto_run _ _ (sub_upto f f' Hf pre sep c) (view w i o)); [done|]. by destruct (run _ _).
Qed.
Lemma print_mono f f' i o w :
  (f <= f')%nat -> fst (do_prog (tree_print f) i o w) <> inr SDiverge -> do_prog (tree_print f') i o w = do_prog (tree_print f) i o w.
Proof.
  intros Hf HD. unfold do_prog in *.
  rewrite (upto_run _ _ (print_upto f f' Hf) (view w i o)); [done|]. by destruct (run _ _).
Qed.

(** ** The binary search does not run out *)
Inductive ends {A} : prog A -> Prop :=
| en_ret a : ends (Ret a)
| en_err e : ends (Stop (SErr e))
| en_panic : ends (Stop SPanic)
| en_len k : (forall v, ends (k v)) -> ends (CoreLen k)
| en_get q k : (forall v, ends (k v)) -> ends (CoreGet q k)
| en_app b k : (forall v, ends (k v)) -> ends (CoreAppend b k)
| en_cget q k : (forall v, ends (k v)) -> ends (CacheGet q k)
| en_cput q e k : ends k -> ends (CachePut q e k)
| en_new nd k : (forall v, ends (k v)) -> ends (NodeNew nd k)
| en_nget n k : (forall v, ends (k v)) -> ends (NodeGet n k)
| en_upd n f k : (forall v, ends (k v)) -> ends (NodeUpd n f k).
Lemma ends_bind {A B} (p : prog A) (f : A -> prog B) : ends p -> (forall a, ends (f a)) -> ends (pbind p f).
Proof. intros H Hf. induction H; simpl; try (by constructor); try apply Hf. Qed.
Lemma ends_run {A} (p : prog A) : ends p -> forall s, fst (run p s) <> inr SDiverge.
Proof.
  intros H. induction H; intros s; simpl; try done; auto.
  - destruct (exec_get q s). auto.
  - destruct (exec_append b s). auto.
  - destruct (heap s !! n); [auto|done].
  - destruct (heap s !! n) as [nd|]; [|done]. destruct (f nd); [auto|done].
Qed.
Lemma ends_unwrap {A} (o : option A) : ends (unwrap o).
Proof. destruct o; constructor. Qed.
Lemma ends_alloc nds : ends (alloc_all nds).
Proof.
  induction nds as [|nd nds IH]; simpl; [constructor|]. constructor. intros n.
  apply ends_bind; [done|constructor].
Qed.
Lemma ends_blocks q : ends (blocks_get q).
Proof.
  unfold blocks_get. apply ends_bind; [constructor; constructor|intros [e|]]; [constructor|].
  apply ends_bind; [constructor; constructor|intros [|[raw|]]]; try constructor.
  destruct (decode_block raw) as [| |b]; try constructor.
  apply ends_bind; [apply ends_alloc|intros ns]. constructor. constructor.
Qed.
Lemma ends_gkv n i : ends (get_key_value n i).
Proof.
  unfold get_key_value. apply ends_bind; [constructor; constructor|intros nd].
  apply ends_bind; [apply ends_unwrap|intros q]. apply ends_bind; [apply ends_blocks|intros e1].
  apply ends_bind; [apply ends_blocks|intros e2]. constructor.
Qed.
Lemma ends_search n key f : forall low high, (high + 1 - low < f)%nat -> ends (search_loop f n key low high).
Proof.
  induction f as [|f IH]; intros low high Hf; [lia|]. cbn [search_loop].
  destruct (Nat.leb_spec low high) as [Hl|Hl]; [|constructor].
  assert (Nat.div2 (high - low) <= high - low)%nat as Hd by (rewrite Nat.div2_div; apply Nat.div_le_upper_bound; lia).
  apply ends_bind; [apply ends_gkv|intros kv].
  destruct (limit_eq _ _); [constructor|]. destruct (limit_lt _ _).
  - destruct (Nat.eqb_spec (low + Nat.div2 (high - low)) 0) as [E|E]; [constructor|]. apply IH. lia.
  - apply IH. lia.
Qed.
Lemma ends_index n key : ends (get_index_of_key n key).
Proof.
  apply ends_bind; [apply ends_bind; [constructor; constructor|constructor]|intros nk].
  destruct (Nat.eqb_spec nk 0) as [E|E]; [constructor|]. apply ends_search. lia.
Qed.
Lemma search_ends n key i o w : fst (do_prog (get_index_of_key n key) i o w) <> inr SDiverge.
Proof.
  pose proof (ends_run _ (ends_index n key) (view w i o)) as H. unfold do_prog. by destruct (run _ _).
Qed.
