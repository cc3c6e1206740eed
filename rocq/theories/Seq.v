(** The reader specifications for a handle used sequentially, and the ownership
    discipline for the nodes a writer changes in place. *)
From Coq.Strings Require Import Byte.
From Coq Require Import Lia Sorting.Sorted.
From stdpp Require Import prelude gmap.
From Verif Require Import Bytes Codec Model Order Wp Store Tree Iter Read Zip.

Local Arguments decode_block : simpl never.
Local Arguments blocks_get : simpl never.

Lemma eq_sext (s s' : st) : s = s' -> sext s s'.
Proof. intros ->. apply sext_refl. Qed.
Lemma sext_hwf s s' : sext s s' -> hwf s -> hwf s'.
Proof. apply sx_hwf. Qed.
Lemma sext_blk s s' q b : sext s s' -> blk (core s) q = Some b -> blk (core s') q = Some b.
Proof. intros Hx. by rewrite (sx_core _ _ Hx). Qed.
Lemma sext_hnode' s s' r nd : sext s s' -> hwf s -> hnode s r = Some nd -> hnode s' r = Some nd.
Proof. intros Hx Hw. rewrite (sext_hnode s s'); [done|done|done|by eapply sext_hwf]. Qed.

(** ** Simple commands *)
Lemma swp_ret {A} (a : A) (Q : A -> st -> Prop) (E : stop -> st -> Prop) s : Q a s -> swp (Ret a) Q E s.
Proof. by intros H s1 <-. Qed.
Lemma swp_bind {A B} (p : prog A) (f : A -> prog B) (Q : B -> st -> Prop) (E : stop -> st -> Prop) s :
  swp p (fun a s' => swp (f a) Q E s') E s -> swp (pbind p f) Q E s.
Proof. by apply rwp_bind. Qed.
Lemma swp_mono {A} (p : prog A) (Q Q' : A -> st -> Prop) (E E' : stop -> st -> Prop) s :
  (forall a s', Q a s' -> Q' a s') -> (forall x s', E x s' -> E' x s') -> swp p Q E s -> swp p Q' E' s.
Proof. by apply rwp_mono. Qed.
Lemma swp_node_get n nd (Q : node -> st -> Prop) (E : stop -> st -> Prop) s :
  heap s !! n = Some nd -> Q nd s -> swp (node_get n) Q E s.
Proof. intros Hn HQ. unfold node_get. intros s1 <-. rewrite Hn. by intros s1 <-. Qed.
Lemma swp_num_keys n nd (Q : nat -> st -> Prop) (E : stop -> st -> Prop) s :
  heap s !! n = Some nd -> Q (length (n_keys nd)) s -> swp (num_keys n) Q E s.
Proof. intros Hn HQ. unfold num_keys. apply swp_bind. eapply swp_node_get; [done|]. by apply swp_ret. Qed.
Lemma swp_num_children n nd (Q : nat -> st -> Prop) (E : stop -> st -> Prop) s :
  heap s !! n = Some nd -> Q (length (n_children nd)) s -> swp (num_children n) Q E s.
Proof. intros Hn HQ. unfold num_children. apply swp_bind. eapply swp_node_get; [done|]. by apply swp_ret. Qed.
Lemma swp_is_leaf n nd (Q : bool -> st -> Prop) (E : stop -> st -> Prop) s :
  heap s !! n = Some nd -> Q (length (n_children nd) =? 0)%nat s -> swp (is_leaf n) Q E s.
Proof. intros Hn HQ. unfold is_leaf. apply swp_bind. eapply swp_num_children; [done|]. by apply swp_ret. Qed.
Lemma swp_node_new nd (Q : nid -> st -> Prop) (E : stop -> st -> Prop) s :
  (forall js, Q (length (heap s ++ js)) (set_heap s ((heap s ++ js) ++ [nd]))) -> swp (node_new nd) Q E s.
Proof. intros HQ. unfold node_new. intros s1 <- js. split; [done|]. intros s1 <-. apply HQ. Qed.
Lemma swp_node_mod {B} n nd (f : node -> option (B * node)) b nd' (Q : B -> st -> Prop) (E : stop -> st -> Prop) s :
  heap s !! n = Some nd -> f nd = Some (b, nd') -> Q b (set_heap s (<[n := nd']> (heap s))) ->
  swp (node_mod n f) Q E s.
Proof.
  intros Hn Hf HQ. unfold node_mod. intros s1 <-. rewrite Hn, Hf. simpl. split; [done|]. by intros s1 <-.
Qed.
Lemma swp_core_len (Q : nat -> st -> Prop) (E : stop -> st -> Prop) s :
  Q (length (core s)) s -> swp core_len Q E s.
Proof. intros HQ. unfold core_len. intros s1 <-. by intros s1 <-. Qed.
Lemma swp_unwrap {A} (o : option A) a (Q : A -> st -> Prop) (E : stop -> st -> Prop) s :
  o = Some a -> Q a s -> swp (unwrap o) Q E s.
Proof. intros -> HQ. by apply swp_ret. Qed.

(** ** Reading *)
Definition sEok (E : stop -> st -> Prop) (s : st) : Prop :=
  forall e s', sext s s' -> hwf s' -> hit e (oracle s) (oracle s') -> E (SErr e) s'.

Lemma swp_get_key_value D n nd i q (Q : kvdata -> st -> Prop) (E : stop -> st -> Prop) s :
  hwf s -> heap s !! n = Some nd -> n_keys nd !! i = Some q -> kok D s q ->
  (forall s', sext s s' -> hwf s' -> Q (D q) s') -> sEok E s ->
  swp (get_key_value n i) Q E s.
Proof.
  apply (wp_get_key_value eq (fun _ _ => True) sext hwf loc); eauto using eq_sext, sext_trans, sext_hwf, sext_heap, sext_blk, sx_oracle.
  intros. by eapply blocks_get_seq.
Qed.

Lemma swp_get_child n nd i r cnd (Q : nid -> st -> Prop) (E : stop -> st -> Prop) s :
  hwf s -> heap s !! n = Some nd -> n_children nd !! i = Some r ->
  hnode s r = Some cnd -> is_Some (blk (core s) (fst r)) ->
  (forall c s', sext s s' -> hwf s' -> heap s' !! c = Some cnd -> loc s' r c -> Q c s') -> sEok E s ->
  swp (get_child n i) Q E s.
Proof.
  apply (wp_get_child eq (fun _ _ => True) sext hwf loc);
    eauto using eq_sext, sext_trans, sext_hwf, sext_heap, sext_blk, sx_oracle, sext_hnode', sext_loc.
  intros. by eapply blocks_get_seq.
Qed.

Definition spath_ok (s : st) (p : path) (tp : zipper) : Prop := path_ok loc s p tp.

Lemma swp_nearest_node D key (Q : option nat * path -> st -> Prop) (E : stop -> st -> Prop) fuel t h n s :
  hwf s -> ready D s t -> shape h t -> ksorted D (flat t) -> (h < fuel)%nat ->
  heap s !! n = Some (node_of t) -> loc s (tref t) n ->
  (forall m p tp s', sext s s' -> hwf s' -> desc D key t m tp -> spath_ok s' p tp -> Q (m, p) s') ->
  sEok E s ->
  swp (nearest_node fuel n key) Q E s.
Proof.
  apply (wp_nearest_node eq (fun _ _ => True) sext hwf loc);
    eauto using eq_sext, sext_refl, sext_trans, sext_hwf, sext_heap, sext_blk, sx_oracle, sext_hnode', sext_loc.
  - intros. by eapply blocks_get_seq.
  - by intros ? [? _].
Qed.
Lemma spath_mono s s' p tp : sext s s' -> spath_ok s p tp -> spath_ok s' p tp.
Proof.
  apply (path_ok_mono sext loc); eauto using sext_heap, sext_loc.
Qed.
