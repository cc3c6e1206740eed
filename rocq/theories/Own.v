(** The blocks of a core that the library wrote, read as messages and as [sane]. *)
From Coq.Strings Require Import Byte.
From Coq Require Import Lia Sorting.Sorted.
From stdpp Require Import prelude gmap.
From Verif Require Import Bytes Codec Model Wire CodecProofs WireProofs Order Wp Store Tree Iter Read Zip Pure Seq Mut MutDel MutTop Commit Spec OrderProofs Client Abs Api Call Det Hist Main Shape.

Lemma enc_opt_length t o : (length (enc_opt_bytes t o) <= length (default [] o) + 20)%nat.
Proof.
  destruct o as [b|]; [|cbn; lia]. cbn [enc_opt_bytes default from_option id]. unfold enc_bytes_field, enc_key. rewrite !app_length.
  pose proof (enc_varint_length (t * 8 + 2)). pose proof (enc_varint_length (blen b)). lia.
Qed.
Lemma metadata_header md : metadata_ok md -> header_ok (Header hyperbee md).
Proof.
  intros H. split; [by vm_compute|]. cbn [h_metadata]. destruct md as [m|]; [|done]. cbn [metadata_ok] in H.
  pose proof (enc_opt_length 1 (md_content_feed m)) as H1. pose proof (enc_opt_length 2 (md_user_data m)) as H2.
  assert (forall o, (length (default [] o) <= length (default [] (md_content_feed m)) + length (default [] (md_user_data m)))%nat -> opt_ok o) as Ho.
  { intros [b|] Hb; [|done]. cbn in Hb. unfold opt_ok, u64, blen. lia. }
  split_and!; [apply Ho; lia|apply Ho; lia|]. unfold u64, blen, enc_metadata. rewrite app_length. lia.
Qed.

Lemma metadata_written feed user : metadata_ok (Some (Metadata feed user)) ->
  header_message hyperbee (Some (feed, user)) (header_block (Some (Metadata feed user))).
Proof. intros H%metadata_header. by apply header_written in H. Qed.

(** The header is not a block. *)
Lemma header_no_block md : metadata_ok md -> decode_block (header_block md) = DErr.
Proof.
  intros H%metadata_header. destruct md as [m|]; [|by vm_compute]. destruct H as (_ & _ & _ & H). unfold decode_block.
  assert (header_block (Some m) = enc_node_schema (NodeSchema hyperbee (enc_metadata m) None)) as ->.
  { unfold header_block, enc_header, enc_node_schema. cbn [h_protocol h_metadata ns_index ns_key ns_value]. by rewrite app_nil_r. }
  rewrite dec_enc_node_schema by (by split; [vm_compute|]). cbn [ns_index]. by vm_compute.
Qed.

(** *** C47 *)
Lemma own_header fuel l raw : history fuel 0 l -> w_core (world_after fuel l) !! 0 = Some raw ->
  exists md, header_message hyperbee md raw.
Proof.
  intros H Hr. reach H. destruct (proj1 (wi_own _ _ _ _ HI) raw Hr) as (md & Hm & ->).
  eexists. by apply header_written, metadata_header.
Qed.
Lemma own_block fuel l v raw : history fuel 0 l -> w_core (world_after fuel l) !! v = Some raw -> (1 <= v)%nat ->
  exists nds key value, block_message nds key value raw /\ encode_block (map to_level nds) key value = raw.
Proof.
  intros H Hr Hv. reach H. destruct (proj2 (wi_own _ _ _ _ HI) v) as (h & T & key & value & len & HW & Hb & Hn & Hl & Hc).
  { apply lookup_lt_Some in Hr. lia. }
  unfold blk in Hb. rewrite Hc in Hr, Hb. injection Hr as <-. destruct (decode_block _) as [| |b] eqn:E in Hb; [done|done|]. injection Hb as ->.
  apply decode_exactly in E. eauto.
Qed.

(** *** C35 *)
Lemma block_at_some C q b : block_at C q = Some b -> exists raw, C !! q = Some raw /\ decode_block raw = DOk b.
Proof. unfold block_at. destruct (C !! q) as [raw|]; [|done]. intros E. exists raw. split; [done|]. cbn in E. destruct (decode_block raw); congruence. Qed.
Lemma shape_sub h T u : shape h T -> u ∈ subs T -> exists h', shape h' u.
Proof.
  revert T. induction h as [|h IH]; intros [r ks cs] Hs Hu; apply elem_of_subs in Hu as [->|(c & Hc & Hu)]; try by eexists.
  - destruct Hs as [-> _]. by apply elem_of_nil in Hc.
  - destruct (shape_kids _ _ c Hs Hc) as [_ Hsc]. by eapply IH.
Qed.
Lemma own_sane fuel l : history fuel 0 l -> sane (w_core (world_after fuel l)).
Proof.
  intros H. pose proof (block_layout fuel l) as HB. pose proof H as H0. reach H0. clear E1 E2 Hfit HN.
  set (C := w_core (world_after fuel l)) in *. destruct (wi_own _ _ _ _ HI) as [Hh Hv]. fold C in Hh, Hv.
  assert (block_at C 0 = None) as HB0.
  { destruct (block_at C 0) as [b|] eqn:E; [|done]. apply block_at_some in E as (raw & Er & Ed).
    destruct (Hh raw Er) as (md & Hmd & ->). by rewrite header_no_block in Ed. }
  assert (forall q b, block_at C q = Some b -> (1 <= q < length C)%nat) as Hq.
  { intros q b E. destruct q as [|q]; [by rewrite HB0 in E|]. apply block_at_some in E as (raw & Er & _). apply lookup_lt_Some in Er. lia. }
  split_and!.
  - intros [|q] raw Hr.
    + destruct (Hh raw Hr) as (md & Hmd & ->). by rewrite header_no_block.
    + destruct (Hv (S q)) as (h & T & key & value & len & _ & Hb & _); [apply lookup_lt_Some in Hr; lia|].
      unfold blk in Hb. rewrite Hr in Hb. by destruct (decode_block raw).
  - intros q b i nd Hb Hi. pose proof (Hq _ _ Hb) as Hql.
    destruct (HB q H Hql) as (nds & key & value & h & T & Hb' & _ & _ & _ & _ & Hr). fold C in Hb', Hr. rewrite Hb in Hb'. injection Hb' as ->.
    cbn [b_nodes] in Hi. split.
    + destruct (Hv q Hql) as (h' & T' & key' & value' & len & HW & Hb' & _). rewrite <-block_at_blk, Hb in Hb'. injection Hb' as -> _ _.
      change (map node_of ?l) with (node_of <$> l) in Hi. rewrite list_lookup_fmap in Hi. destruct (newsubs q T' !! i) as [u|] eqn:Eu; [|done].
      injection Hi as <-. apply elem_of_list_lookup_2, newsubs_subs in Eu as [Hu _].
      destruct (shape_sub _ _ _ (proj1 (wf_shape _ _ _ _ HW)) Hu) as (h1 & Hs). destruct u as [r ks cs]. cbn. rewrite map_length.
      destruct h1 as [|h1]; [destruct Hs as [-> _]; by left|]. destruct Hs as (-> & _). right. lia.
    + apply Forall_forall. intros [q' j] Hc. cbn [fst snd]. destruct (Hr i nd q' j Hi Hc) as [[-> Hj]|[Hq' (b' & Hb' & Hj)]].
      * split; [right; split; [done|lia]|]. intros b' Hb'. rewrite Hb in Hb'. injection Hb' as <-. cbn [b_nodes]. lia.
      * split; [left; lia|]. intros b1 Hb1. congruence.
  - intros b Hb E. pose proof (Hq _ _ Hb) as Hql. destruct (Hv _ Hql) as (h & T & key & value & len & HW & Hb' & Hn & Hl & _).
    rewrite <-block_at_blk, Hb in Hb'. injection Hb' as ->. cbn [b_nodes] in E. apply map_eq_nil in E. rewrite E in Hn. cbn in Hn.
    apply (f_equal length) in Hn. unfold news in Hn. rewrite map_length, seq_length in Hn. cbn in Hn. lia.
Qed.

(** *** C49 *)
Lemma enc_key_length t w : (length (enc_key t w) <= 10)%nat.
Proof. apply enc_varint_length. Qed.
Lemma enc_bytes_field_length t b : (length (enc_bytes_field t b) <= 20 + length b)%nat.
Proof. unfold enc_bytes_field. rewrite !app_length. pose proof (enc_key_length t 2). pose proof (enc_varint_length (blen b)). lia. Qed.
Lemma varints_length l : (length (concat (map enc_varint l)) <= 10 * length l)%nat.
Proof. induction l as [|x l IH]; [done|]. cbn [map concat length]. rewrite app_length. pose proof (enc_varint_length x). lia. Qed.
Lemma enc_packed_length t l : (length (enc_packed t l) <= 20 + 10 * length l)%nat.
Proof.
  destruct l as [|x l]; [cbn; lia|]. unfold enc_packed. rewrite !app_length. pose proof (enc_key_length t 2).
  pose proof (varints_length (x :: l)). pose proof (enc_varint_length (blen (concat (map enc_varint (x :: l))))). lia.
Qed.
Lemma flat_refs_length cs : length (flat_refs cs) = (2 * length cs)%nat.
Proof. unfold flat_refs. induction cs as [|c cs IH]; [done|]. cbn [map concat]. rewrite app_length, IH. cbn [length]. lia. Qed.
Lemma enc_node_length nd : (length (n_keys nd) <= 8)%nat -> (length (n_children nd) <= 9)%nat ->
  (length (enc_bytes_field 1 (enc_level (to_level nd))) <= 320)%nat.
Proof.
  intros Hk Hc. etrans; [apply enc_bytes_field_length|]. unfold enc_level, to_level. cbn [lv_keys lv_children]. rewrite app_length.
  pose proof (enc_packed_length 1 (map N.of_nat (n_keys nd))) as H1. pose proof (enc_packed_length 2 (flat_refs (n_children nd))) as H2.
  rewrite map_length in H1. rewrite flat_refs_length in H2. lia.
Qed.
Lemma enc_yolo_length nds : Forall (fun nd => length (n_keys nd) <= 8 /\ length (n_children nd) <= 9)%nat nds ->
  (length (enc_yolo (map to_level nds)) <= 320 * length nds)%nat.
Proof.
  unfold enc_yolo. induction 1 as [|nd nds [Hk Hc] _ IH]; [done|]. cbn [map concat length]. rewrite app_length.
  pose proof (enc_node_length nd Hk Hc). lia.
Qed.
Lemma encode_block_length nds key value : Forall (fun nd => length (n_keys nd) <= 8 /\ length (n_children nd) <= 9)%nat nds ->
  (length (encode_block (map to_level nds) key value) <= 320 * length nds + 60 + length key + length (default [] value))%nat.
Proof.
  intros H. unfold encode_block, enc_node_schema. cbn [ns_index ns_key ns_value]. rewrite !app_length.
  pose proof (enc_bytes_field_length 1 (enc_yolo (map to_level nds))). pose proof (enc_yolo_length nds H).
  pose proof (enc_bytes_field_length 2 key).
  destruct value as [v|]; [pose proof (enc_bytes_field_length 3 v)|]; cbn [default from_option id length]; lia.
Qed.
Lemma shape_small h u : shape h u -> (length (n_keys (node_of u)) <= 8 /\ length (n_children (node_of u)) <= 9)%nat.
Proof.
  destruct u as [r ks cs]. cbn [node_of n_keys n_children tkeys tkids]. rewrite map_length.
  destruct h as [|h]; [intros [-> ?]; cbn; lia|]. intros (E & ? & _). lia.
Qed.
Lemma block_size fuel l v raw : history fuel 0 l -> w_core (world_after fuel l) !! v = Some raw -> (1 <= v)%nat ->
  let C := w_core (world_after fuel l) in
  exists nds key value h T, block_at C v = Some (Block nds key value) /\ read_tree (S h) C (v, 0) = Some T /\
    (h = 0 \/ 2 * 5 ^ h <= length (inorder T) + 1)%nat /\
    (length raw <= 320 * (2 * h + 3) + 60 + length key + length (default [] value))%nat.
Proof.
  intros H Hr Hv. reach H. cbn zeta. destruct (proj2 (wi_own _ _ _ _ HI) v) as (h & T & key & value & len & HW & Hb & Hn & Hl & Hc).
  { apply lookup_lt_Some in Hr. lia. }
  set (C := w_core (world_after fuel l)) in *.
  destruct (version_tree _ _ _ _ HW) as (HT & _ & _ & Hh).
  assert (length (newsubs v T) = len) as Elen.
  { apply (f_equal length) in Hn. unfold news in Hn. rewrite !map_length, seq_length in Hn. lia. }
  exists (map node_of (newsubs v T)), key, value, h, (erase C T). rewrite block_at_blk.
  split; [done|]. split; [done|]. split; [done|]. rewrite Hc in Hr. injection Hr as <-.
  etrans; [apply encode_block_length|].
  - apply Forall_forall. intros nd (u & -> & Hu)%elem_of_list_fmap. apply newsubs_subs in Hu as [Hu _].
    destruct (Tree.shape_sub h T u) as (h' & _ & Hs); [apply HW|done|]. by eapply shape_small.
  - rewrite map_length, Elen. lia.
Qed.
