(** The meaning of the core's blocks, well-formed handles (cache and heap), and
    what [Blocks::get] does to them. *)
From Coq.Strings Require Import Byte.
From Coq Require Import Lia.
From stdpp Require Import prelude gmap.
From Verif Require Import Bytes Codec CodecProofs Model Wp.

Local Arguments decode_block : simpl never.

(** * Decoding what was encoded *)
Definition node_u64 (nd : node) : Prop :=
  Forall (fun q => u64 (N.of_nat q)) (n_keys nd) /\
  Forall (fun r : ref => u64 (N.of_nat (fst r)) /\ u64 (N.of_nat (snd r))) (n_children nd).

Definition block_ok (b : block) : Prop :=
  Forall node_u64 (b_nodes b) /\
  u64 (blen (enc_yolo (map to_level (b_nodes b)))) /\
  u64 (blen (b_key b)) /\
  match b_value b with None => True | Some v => u64 (blen v) end.

Lemma pair_up_flat cs : pair_up (flat_refs cs) = Some cs.
Proof.
  induction cs as [|[a b] cs IH]; [done|].
  change (flat_refs ((a, b) :: cs)) with (N.of_nat a :: N.of_nat b :: flat_refs cs).
  cbn [pair_up]. rewrite IH. simpl. by rewrite !Nat2N.id.
Qed.

Lemma level_to_node_to_level nd : level_to_node (to_level nd) = Some nd.
Proof.
  unfold level_to_node, to_level. simpl. rewrite pair_up_flat. simpl.
  destruct nd as [ks cs]. simpl. f_equal. f_equal.
  rewrite map_map. rewrite <-(map_id ks) at 2. apply map_ext. intros. apply Nat2N.id.
Qed.

Lemma mapM_to_level nds : mapM level_to_node (map to_level nds) = Some nds.
Proof.
  induction nds as [|nd nds IH]; [done|]. simpl. rewrite level_to_node_to_level. simpl.
  by rewrite IH.
Qed.

Lemma u64_le a b : (a <= b)%N -> u64 b -> u64 a.
Proof. unfold u64. lia. Qed.

Lemma blen_app a b : blen (a ++ b) = (blen a + blen b)%N.
Proof. unfold blen. rewrite app_length. lia. Qed.

Lemma packed_len_le l tag : (packed_len l <= blen (enc_packed tag l))%N.
Proof.
  unfold packed_len, enc_packed. destruct l as [|x l]; [simpl; lia|].
  cbv zeta. rewrite !blen_app. lia.
Qed.

Lemma level_ok_yolo nds :
  Forall node_u64 nds -> u64 (blen (enc_yolo (map to_level nds))) ->
  Forall level_ok (map to_level nds).
Proof.
  intros Hn Hb. induction nds as [|nd nds IH]; [constructor|].
  inversion Hn as [|?? [Hk Hc] Hns]; subst.
  change (enc_yolo (map to_level (nd :: nds))) with
    (enc_bytes_field 1 (enc_level (to_level nd)) ++ enc_yolo (map to_level nds)) in Hb.
  rewrite blen_app in Hb. unfold enc_bytes_field in Hb. rewrite !blen_app in Hb.
  simpl map. constructor.
  - assert (u64 (blen (enc_level (to_level nd)))) as Hl by (eapply u64_le; [|exact Hb]; lia).
    pose proof Hl as Hl'. unfold enc_level in Hl'. rewrite blen_app in Hl'.
    split_and!; [| | | |done].
    + simpl. rewrite Forall_map. exact Hk.
    + simpl. unfold flat_refs. rewrite Forall_concat, Forall_map.
      eapply Forall_impl; [exact Hc|]. intros [a b] [??]. by repeat constructor.
    + eapply u64_le; [|exact Hl']. pose proof (packed_len_le (lv_keys (to_level nd)) 1). lia.
    + eapply u64_le; [|exact Hl']. pose proof (packed_len_le (lv_children (to_level nd)) 2). lia.
  - apply IH; [done|]. eapply u64_le; [|exact Hb]. lia.
Qed.

Lemma decode_encode_block nds key value :
  block_ok (Block nds key value) ->
  decode_block (encode_block (map to_level nds) key value) = DOk (Block nds key value).
Proof.
  intros (Hn & Hi & Hk & Hv). simpl in *. unfold decode_block, encode_block.
  rewrite dec_enc_node_schema by done. simpl.
  rewrite dec_enc_yolo by (by apply level_ok_yolo). by rewrite mapM_to_level.
Qed.

(** A bound on the size of an encoded index. *)
Lemma enc_key_length tag wt : (length (enc_key tag wt) <= 10)%nat.
Proof. apply enc_varint_length. Qed.

Lemma concat_varints_length l : (length (concat (map enc_varint l)) <= 10 * length l)%nat.
Proof.
  induction l as [|x l IH]; simpl; [lia|]. rewrite app_length.
  pose proof (enc_varint_length x). lia.
Qed.

Lemma enc_packed_length tag l : (length (enc_packed tag l) <= 20 + 10 * length l)%nat.
Proof.
  unfold enc_packed. destruct l as [|x l]; [simpl; lia|]. cbv zeta.
  rewrite !app_length. pose proof (enc_key_length tag 2).
  pose proof (enc_varint_length (blen (concat (map enc_varint (x :: l))))).
  pose proof (concat_varints_length (x :: l)). lia.
Qed.

Lemma flat_refs_length cs : length (flat_refs cs) = (2 * length cs)%nat.
Proof.
  induction cs as [|c cs IH]; [done|].
  change (flat_refs (c :: cs)) with (N.of_nat (fst c) :: N.of_nat (snd c) :: flat_refs cs).
  cbn [length]. lia.
Qed.

Lemma enc_yolo_length nds (m : nat) :
  Forall (fun nd => length (n_keys nd) <= 8 /\ length (n_children nd) <= 9)%nat nds ->
  (length (enc_yolo (map to_level nds)) <= 320 * length nds)%nat.
Proof.
  intros Hn. induction nds as [|nd nds IH]; [simpl; lia|].
  inversion Hn as [|?? [Hk Hc] Hns]; subst.
  change (enc_yolo (map to_level (nd :: nds))) with
    (enc_bytes_field 1 (enc_level (to_level nd)) ++ enc_yolo (map to_level nds)).
  unfold enc_bytes_field, enc_level. rewrite !app_length.
  pose proof (enc_key_length 1 2).
  pose proof (enc_varint_length (blen (enc_packed 1 (lv_keys (to_level nd)) ++ enc_packed 2 (lv_children (to_level nd))))).
  pose proof (enc_packed_length 1 (lv_keys (to_level nd))) as H1.
  pose proof (enc_packed_length 2 (lv_children (to_level nd))) as H2.
  simpl lv_keys in *. simpl lv_children in *. rewrite map_length in *. rewrite flat_refs_length in *.
  specialize (IH Hns). cbn [length]. lia.
Qed.

(** * What the core says *)
Definition blk (C : list bytes) (q : nat) : option block :=
  match C !! q with
  | Some raw => match decode_block raw with DOk b => Some b | _ => None end
  | None => None
  end.
Definition cnode (C : list bytes) (r : ref) : option node :=
  match blk C (fst r) with Some b => b_nodes b !! snd r | None => None end.
Definition kd (C : list bytes) (q : nat) : kvdata :=
  match blk C q with Some b => KV q (b_key b) (b_value b) | None => KV q [] None end.

Lemma blk_prefix C C' q b : C `prefix_of` C' -> blk C q = Some b -> blk C' q = Some b.
Proof.
  intros Hp. unfold blk. destruct (C !! q) as [raw|] eqn:E; [|done].
  by rewrite (prefix_lookup C C' q raw E Hp).
Qed.
Lemma blk_lt C q b : blk C q = Some b -> (q < length C)%nat.
Proof. unfold blk. destruct (C !! q) eqn:E; [|done]. intros _. by eapply lookup_lt_Some. Qed.
Lemma blk_take C n q : (q < n)%nat -> blk (take n C) q = blk C q.
Proof. intros H. unfold blk. by rewrite lookup_take. Qed.
Lemma blk_app_l C C' q : (q < length C)%nat -> blk (C ++ C') q = blk C q.
Proof. intros H. unfold blk. by rewrite lookup_app_l. Qed.
Lemma cnode_prefix C C' r nd : C `prefix_of` C' -> cnode C r = Some nd -> cnode C' r = Some nd.
Proof.
  intros Hp. unfold cnode. destruct (blk C (fst r)) as [b|] eqn:E; [|done].
  by rewrite (blk_prefix C C' _ _ Hp E).
Qed.
Lemma cnode_lt C r nd : cnode C r = Some nd -> (fst r < length C)%nat.
Proof. unfold cnode. destruct (blk C (fst r)) eqn:E; [|done]. intros _. by eapply blk_lt. Qed.
Lemma cnode_app_l C C' r : (fst r < length C)%nat -> cnode (C ++ C') r = cnode C r.
Proof. intros H. unfold cnode. by rewrite blk_app_l. Qed.
Lemma kd_prefix C C' q b : C `prefix_of` C' -> blk C q = Some b -> kd C' q = kd C q.
Proof. intros Hp Hb. unfold kd. by rewrite (blk_prefix C C' q b Hp Hb), Hb. Qed.
Lemma kd_seq C q : kv_seq (kd C q) = q.
Proof. unfold kd. by destruct (blk C q). Qed.

(** * Faults *)
Definition faulty (o : list fault) : Prop := Exists (fun f => f <> FNone) o.

Definition fault_err (e : err) (f : fault) : Prop :=
  match f with
  | FNone => False
  | FMissing => exists q, e = ENoBlockAtSeq q
  | FErr | FErrAfter | FReadErr => e = EHypercore
  end.
Definition failing (e : err) (o : list fault) : Prop := Exists (fault_err e) o.
Definition losing (o : list fault) : Prop := Exists (fun f => f = FErr \/ f = FErrAfter) o.

Lemma failing_suffix e o o' : o' `suffix_of` o -> failing e o' -> failing e o.
Proof. intros [k ->] H. unfold failing. apply Exists_app. by right. Qed.
Lemma losing_suffix o o' : o' `suffix_of` o -> losing o' -> losing o.
Proof. intros [k ->] H. unfold losing. apply Exists_app. by right. Qed.
Lemma failing_faulty e o : failing e o -> Exists (fun f => f <> FNone) o.
Proof. intros H. eapply Exists_impl; [exact H|]. by intros []. Qed.
Lemma losing_failing o : losing o -> failing EHypercore o.
Proof. intros H. eapply Exists_impl; [exact H|]. by intros f [-> | ->]. Qed.

(** A failure reported as [e], after which [o'] is left of [o]. *)
Definition hit (e : err) (o o' : list fault) : Prop :=
  exists f o2, f :: o2 `suffix_of` o /\ fault_err e f /\ o' `suffix_of` o2.
Lemma hit_l e o o1 o' : o1 `suffix_of` o -> hit e o1 o' -> hit e o o'.
Proof. intros H (f & o2 & H1 & H2 & H3). exists f, o2. split_and!; [by etransitivity|done..]. Qed.
Lemma hit_r e o o1 o' : o' `suffix_of` o1 -> hit e o o1 -> hit e o o'.
Proof. intros H (f & o2 & H1 & H2 & H3). exists f, o2. split_and!; [done..|by etransitivity]. Qed.
Lemma hit_suffix e o o' : hit e o o' -> o' `suffix_of` o.
Proof. intros (f & o2 & H1 & H2 & H3). etransitivity; [exact H3|]. etransitivity; [|exact H1]. by apply suffix_cons_r. Qed.
Lemma hit_failing e o o' : hit e o o' -> failing e o.
Proof. intros (f & o2 & [k ->] & H2 & H3). unfold failing. apply Exists_app. right. by left. Qed.

Lemma faulty_suffix o o' : o' `suffix_of` o -> faulty o' -> faulty o.
Proof. intros [k ->] H. unfold faulty. apply Exists_app. by right. Qed.

Lemma set_oracle_nil s : oracle s = [] -> set_oracle s (tail (oracle s)) = s.
Proof. destruct s as [c h hp o]. simpl. by intros ->. Qed.

Lemma exec_get_state q s : snd (exec_get q s) = set_oracle s (tail (oracle s)).
Proof.
  unfold exec_get. destruct (oracle s) as [|f o] eqn:E.
  - simpl. rewrite <-(set_oracle_nil s E) at 1. by rewrite E.
  - by destruct f.
Qed.

Lemma exec_get_value q s raw :
  core s !! q = Some raw ->
  fst (exec_get q s) = GOk (Some raw) \/
  (hit EHypercore (oracle s) (tail (oracle s)) /\ fst (exec_get q s) = GErr) \/
  (hit (ENoBlockAtSeq q) (oracle s) (tail (oracle s)) /\ fst (exec_get q s) = GOk None).
Proof.
  intros Hq. unfold exec_get. destruct (oracle s) as [|f o] eqn:E; simpl; rewrite ?Hq; [by left|].
  destruct f; simpl; rewrite ?Hq; [by left|right..]; [left|right|left|left]; (split; [eexists _, _; split_and!; [done| |done]|done]); [done|by eexists|done|done].
Qed.

Lemma suffix_tail {A} (l : list A) : tail l `suffix_of` l.
Proof. destruct l as [|x l]; [done|]. by apply suffix_cons_r. Qed.

(** * Handles *)

(** The cache says that node [n] is the one reference [r] leads to. *)
Definition loc (s : st) (r : ref) (n : nid) : Prop :=
  exists e, cache s !! fst r = Some e /\ e_nodes e !! snd r = Some n.

(** The node a lookup of [r] through the handle finds. *)
Definition hnode (s : st) (r : ref) : option node :=
  match cache s !! fst r with
  | Some e => match e_nodes e !! snd r with Some n => heap s !! n | None => None end
  | None => cnode (core s) r
  end.

Definition entry_ok (s : st) (q : nat) (e : entry) : Prop :=
  exists b, blk (core s) q = Some b /\ e_key e = b_key b /\ e_value e = b_value b /\
    length (e_nodes e) = length (b_nodes b) /\
    Forall (fun n => n < length (heap s))%nat (e_nodes e).

(** Well-formedness needed by readers, and the stronger one of a handle that is
    used sequentially. *)
Definition cwf (s : st) : Prop := forall q e, cache s !! q = Some e -> entry_ok s q e.
Definition hwf (s : st) : Prop :=
  cwf s /\ forall r1 r2 n, loc s r1 n -> loc s r2 n -> r1 = r2.

Lemma loc_hnode s r n : loc s r n -> hnode s r = heap s !! n.
Proof. intros (e & H1 & H2). unfold hnode. by rewrite H1, H2. Qed.
Lemma loc_fun s r n1 n2 : loc s r n1 -> loc s r n2 -> n1 = n2.
Proof. intros (e & H1 & H2) (e' & H1' & H2'). congruence. Qed.
Lemma loc_lt s r n : cwf s -> loc s r n -> (n < length (heap s))%nat.
Proof.
  intros Hw (e & H1 & H2). destruct (Hw _ _ H1) as (b & _ & _ & _ & _ & Hf).
  rewrite Forall_forall in Hf. apply Hf. by eapply elem_of_list_lookup_2.
Qed.

Lemma entry_ok_mono s s' q e :
  core s `prefix_of` core s' -> (length (heap s) <= length (heap s'))%nat ->
  entry_ok s q e -> entry_ok s' q e.
Proof.
  intros Hc Hh (b & H1 & H2 & H3 & H4 & H5). exists b. split_and!; [by eapply blk_prefix|done..|].
  eapply Forall_impl; [exact H5|]. intros n. simpl. lia.
Qed.

(** ** Sequential use: what reading may do to a handle *)
Record sext (s s' : st) : Prop := {
  sx_core : core s' = core s;
  sx_heap : heap s `prefix_of` heap s';
  sx_cache : cache s ⊆ cache s';
  sx_oracle : oracle s' `suffix_of` oracle s;
  sx_hwf : hwf s -> hwf s';
  sx_new : forall q e off n, cache s' !! q = Some e -> cache s !! q = None ->
    e_nodes e !! off = Some n ->
    (length (heap s) <= n)%nat /\
    exists nd, heap s' !! n = Some nd /\ cnode (core s) (q, off) = Some nd }.

Lemma sext_refl s : sext s s.
Proof. split; try done. intros q e off n H1 H2. congruence. Qed.

Lemma sext_trans s1 s2 s3 : sext s1 s2 -> sext s2 s3 -> sext s1 s3.
Proof.
  intros H1 H2. split.
  - rewrite (sx_core _ _ H2). apply (sx_core _ _ H1).
  - etrans; [apply (sx_heap _ _ H1)|apply (sx_heap _ _ H2)].
  - etrans; [apply (sx_cache _ _ H1)|apply (sx_cache _ _ H2)].
  - etrans; [apply (sx_oracle _ _ H2)|apply (sx_oracle _ _ H1)].
  - intros Hw. apply (sx_hwf _ _ H2), (sx_hwf _ _ H1), Hw.
  - intros q e off n Hq Hn He.
    destruct (cache s2 !! q) as [e2|] eqn:E2.
    + assert (cache s3 !! q = Some e2) as E3.
      { eapply lookup_weaken; [exact E2|apply (sx_cache _ _ H2)]. }
      assert (e2 = e) as -> by congruence.
      destruct (sx_new _ _ H1 _ _ _ _ E2 Hn He) as (Hl & nd & Hnd & Hc).
      split; [done|]. exists nd. split; [|done].
      eapply prefix_lookup; [exact Hnd|apply (sx_heap _ _ H2)].
    + destruct (sx_new _ _ H2 _ _ _ _ Hq E2 He) as (Hl & nd & Hnd & Hc).
      split. { pose proof (prefix_length _ _ (sx_heap _ _ H1)). lia. }
      exists nd. split; [done|]. by rewrite (sx_core _ _ H1) in Hc.
Qed.

Lemma sext_loc s s' r n : sext s s' -> loc s r n -> loc s' r n.
Proof.
  intros Hs (e & H1 & H2). exists e. split; [|done].
  eapply lookup_weaken; [exact H1|apply (sx_cache _ _ Hs)].
Qed.

Lemma sext_loc_inv s s' r n :
  sext s s' -> loc s' r n -> loc s r n \/ (length (heap s) <= n)%nat.
Proof.
  intros Hs (e & H1 & H2). destruct (cache s !! fst r) as [e0|] eqn:E.
  - left. exists e0. split; [done|].
    assert (cache s' !! fst r = Some e0) as E'.
    { eapply lookup_weaken; [exact E|apply (sx_cache _ _ Hs)]. }
    congruence.
  - right. by eapply (sx_new _ _ Hs).
Qed.

Lemma sext_heap s s' n nd : sext s s' -> heap s !! n = Some nd -> heap s' !! n = Some nd.
Proof. intros Hs H. eapply prefix_lookup; [exact H|apply (sx_heap _ _ Hs)]. Qed.

Lemma sext_hnode s s' r : sext s s' -> hwf s -> hwf s' -> hnode s' r = hnode s r.
Proof.
  intros Hs [Hw _] [Hw' _]. unfold hnode.
  destruct (cache s !! fst r) as [e|] eqn:E.
  - assert (cache s' !! fst r = Some e) as ->.
    { eapply lookup_weaken; [exact E|apply (sx_cache _ _ Hs)]. }
    destruct (e_nodes e !! snd r) as [n|] eqn:En; [|done].
    assert (n < length (heap s))%nat as Hn. { eapply loc_lt; [exact Hw|]. by exists e. }
    destruct (lookup_lt_is_Some_2 _ _ Hn) as [nd Hnd].
    rewrite Hnd. by eapply sext_heap.
  - destruct (cache s' !! fst r) as [e|] eqn:E'; [|by rewrite (sx_core _ _ Hs)].
    destruct (e_nodes e !! snd r) as [n|] eqn:En.
    + destruct (sx_new _ _ Hs _ _ _ _ E' E En) as (_ & nd & -> & Hc).
      destruct r. simpl in *. by rewrite Hc.
    + destruct (Hw' _ _ E') as (b & Hb & _ & _ & Hlen & _).
      unfold cnode. rewrite (sx_core _ _ Hs) in Hb. rewrite Hb.
      symmetry. apply lookup_ge_None. apply lookup_ge_None in En. lia.
Qed.

Definition swp {A} (p : prog A) (Q : A -> st -> Prop) (E : stop -> st -> Prop) (s : st) : Prop :=
  rwp eq (fun _ _ => True) p Q E s.

Lemma alloc_all_seq nds (Q : list nid -> st -> Prop) (E : stop -> st -> Prop) s :
  (forall ns h, heap s `prefix_of` h -> Forall2 (fun n nd => h !! n = Some nd) ns nds -> NoDup ns ->
     Forall (fun n => length (heap s) <= n)%nat ns -> Q ns (set_heap s h)) ->
  swp (alloc_all nds) Q E s.
Proof.
  revert Q s. induction nds as [|nd nds IH]; intros Q s HQ.
  - intros s1 <-. specialize (HQ [] (heap s)). destruct s. apply HQ; constructor || done.
  - simpl. intros s1 <- js. split; [done|].
    apply rwp_bind; [done|]. apply IH. simpl. intros ns h Hp Hf Hnd Hge s1 <-.
    assert (length (heap s ++ js) < length ((heap s ++ js) ++ [nd]))%nat as Hlt.
    { rewrite (app_length (heap s ++ js)). simpl. lia. }
    apply HQ.
    + etrans; [|exact Hp]. rewrite <-app_assoc. by apply prefix_app_r.
    + constructor; [|done]. eapply prefix_lookup; [|exact Hp].
      by rewrite lookup_app_r, Nat.sub_diag by lia.
    + constructor; [|done]. intros Hin. rewrite Forall_forall in Hge. apply Hge in Hin. lia.
    + constructor; [rewrite app_length; lia|]. eapply Forall_impl; [exact Hge|]. simpl.
      intros n. rewrite !app_length in *. lia.
Qed.

Lemma blocks_get_seq q b s (Q : entry -> st -> Prop) (E : stop -> st -> Prop) :
  hwf s -> blk (core s) q = Some b ->
  (forall e s', sext s s' -> hwf s' -> e_key e = b_key b -> e_value e = b_value b ->
     (forall off nd, hnode s (q, off) = Some nd ->
        exists n, e_nodes e !! off = Some n /\ heap s' !! n = Some nd /\ loc s' (q, off) n) ->
     Q e s') ->
  (forall e s', sext s s' -> hwf s' -> hit e (oracle s) (oracle s') -> E (SErr e) s') ->
  swp (blocks_get q) Q E s.
Proof.
  intros Hw Hb HQ HE. unfold blocks_get. simpl. intros s1 <-.
  destruct (cache s !! q) as [e|] eqn:Ec.
  { intros s1 <-. destruct (proj1 Hw _ _ Ec) as (b' & Hb' & Hk & Hv & Hlen & Hf).
    assert (b' = b) as -> by congruence.
    apply HQ; [apply sext_refl|done..|].
    intros off nd Hnd. unfold hnode in Hnd. simpl in Hnd. rewrite Ec in Hnd.
    destruct (e_nodes e !! off) as [n|] eqn:En; [|done].
    exists n. split; [done|]. split; [done|]. by exists e. }
  intros s1 <-. split; [done|].
  unfold blk in Hb. destruct (core s !! q) as [raw|] eqn:Er; [|done].
  destruct (decode_block raw) as [| |b0] eqn:Ed; [done..|]. injection Hb as ->.
  set (s2 := snd (exec_get q s)).
  assert (s2 = set_oracle s (tail (oracle s))) as Hs2 by apply exec_get_state.
  assert (hwf s2) as Hw2. { rewrite Hs2. exact Hw. }
  assert (sext s s2) as Hx2.
  { rewrite Hs2. split; try done.
    - apply suffix_tail.
    - intros q0 e off n H1 H2. simpl in H1. congruence. }
  destruct (exec_get_value q s raw Er) as [->|[[Hfl ->]|[Hfl ->]]].
  2,3: intros s3 <-; apply HE; [done|done|]; by rewrite Hs2.
  rewrite Ed. apply rwp_bind; [done|]. apply alloc_all_seq.
  intros ns h3 Hh3 Hf3 Hnd3 Hge3.
  set (s3 := set_heap s2 h3).
  intros s4 <-. split; [done|]. intros s5 <-.
  set (e := Entry ns (b_key b) (b_value b)).
  set (s4 := set_cache s3 (<[q := e]> (cache s3))).
  assert (blk (core s) q = Some b) as Hb. { unfold blk. by rewrite Er, Ed. }
  assert (cache s2 = cache s) as Hc2 by (rewrite Hs2; done).
  assert (heap s2 = heap s) as Hh2 by (rewrite Hs2; done).
  assert (core s2 = core s) as Hco2 by (rewrite Hs2; done).
  rewrite Hh2 in Hh3, Hge3.
  assert (forall off n, ns !! off = Some n -> exists nd, b_nodes b !! off = Some nd /\
            heap s4 !! n = Some nd /\ (length (heap s) <= n)%nat) as Hns.
  { intros off n Hn. destruct (Forall2_lookup_l _ _ _ _ _ Hf3 Hn) as (nd & Hnd & Hhn). exists nd.
    split_and!; [done|done|]. rewrite Forall_forall in Hge3. apply Hge3. by eapply elem_of_list_lookup_2. }
  assert (hwf s4) as Hw4.
  { split.
    - intros q' e' He'. simpl in He'. rewrite Hc2 in He'.
      apply lookup_insert_Some in He' as [[<- <-]|[Hne He']].
      + exists b. simpl. rewrite Hco2. split_and!; [done..| |].
        * by eapply Forall2_length.
        * apply Forall_forall. intros n Hn. apply elem_of_list_lookup in Hn as [off Hn].
          apply Hns in Hn as (nd & _ & Hn & _). by eapply lookup_lt_Some.
      + eapply entry_ok_mono; [| |apply (proj1 Hw _ _ He')].
        * simpl. by rewrite Hco2.
        * simpl. by apply prefix_length.
    - intros r1 r2 n H1 H2.
      assert (forall r, loc s4 r n ->
                (fst r = q /\ ns !! snd r = Some n) \/ (fst r <> q /\ loc s r n)) as Hcase.
      { intros r (e' & He' & Hn). simpl in He'. rewrite Hc2 in He'.
        apply lookup_insert_Some in He' as [[<- <-]|[Hne He']]; [by left|].
        right. split; [done|]. by exists e'. }
      destruct (Hcase _ H1) as [[H1a H1b]|[H1a H1b]], (Hcase _ H2) as [[H2a H2b]|[H2a H2b]].
      + pose proof (NoDup_lookup _ _ _ _ Hnd3 H1b H2b) as Hoff.
        destruct r1, r2; simpl in *. congruence.
      + apply Hns in H1b as (_ & _ & _ & Hge). apply (loc_lt _ _ _ (proj1 Hw)) in H2b. lia.
      + apply Hns in H2b as (_ & _ & _ & Hge). apply (loc_lt _ _ _ (proj1 Hw)) in H1b. lia.
      + by eapply (proj2 Hw). }
  assert (sext s s4) as Hx4.
  { split.
    - done.
    - done.
    - simpl. rewrite Hc2. by apply insert_subseteq.
    - apply (sx_oracle _ _ Hx2).
    - done.
    - intros q' e' off n He' Hnone Hn. simpl in He'. rewrite Hc2 in He'.
      apply lookup_insert_Some in He' as [[<- <-]|[Hne He']]; [|congruence].
      simpl in Hn. destruct (Hns _ _ Hn) as (nd & Hnd & Hh & Hge). split; [done|].
      exists nd. split; [done|]. unfold cnode. simpl. by rewrite Hb. }
  apply HQ; [done|done|done|done|].
  intros off nd Hnd. unfold hnode in Hnd. simpl in Hnd. rewrite Ec in Hnd.
  unfold cnode in Hnd. simpl in Hnd. rewrite Hb in Hnd.
  destruct (Forall2_lookup_r _ _ _ _ _ Hf3 Hnd) as (n & Hoff & Hh).
  exists n. split_and!; [done|done|].
  exists e. split; [|done]. simpl. apply lookup_insert.
Qed.

(** ** Concurrent readers and a growing core *)
Definition pristine (s : st) (q : nat) : Prop :=
  forall e off n, cache s !! q = Some e -> e_nodes e !! off = Some n ->
  exists nd, heap s !! n = Some nd /\ cnode (core s) (q, off) = Some nd.

Record cext (s s' : st) : Prop := {
  cx_core : core s `prefix_of` core s';
  cx_heap : heap s `prefix_of` heap s';
  cx_oracle : oracle s' `suffix_of` oracle s;
  cx_cwf : cwf s -> cwf s';
  cx_hnode : cwf s -> forall r nd, hnode s r = Some nd -> hnode s' r = Some nd;
  cx_pristine : cwf s -> forall q, pristine s q -> pristine s' q }.

Lemma cext_refl s : cext s s.
Proof. by split. Qed.
Lemma cext_trans s1 s2 s3 : cext s1 s2 -> cext s2 s3 -> cext s1 s3.
Proof.
  intros [] []. split; try (by etrans); eauto.
Qed.

(** Steps that only grow the core and the heap and consume the fault schedule. *)
Lemma cext_grow s s' :
  core s `prefix_of` core s' -> heap s `prefix_of` heap s' -> cache s' = cache s ->
  oracle s' `suffix_of` oracle s -> cext s s'.
Proof.
  intros Hc Hh Hca Ho. split; try done.
  - intros Hw q e He. rewrite Hca in He. eapply entry_ok_mono; [done| |by apply Hw].
    by apply prefix_length.
  - intros Hw r nd. unfold hnode. rewrite Hca. destruct (cache s !! fst r) as [e|].
    + destruct (e_nodes e !! snd r) as [n|]; [|done]. intros H. by eapply prefix_lookup.
    + by apply cnode_prefix.
  - intros Hw q Hp e off n He Hn. rewrite Hca in He.
    destruct (Hp e off n He Hn) as (nd & H1 & H2). exists nd.
    split; [by eapply prefix_lookup|by eapply cnode_prefix].
Qed.

Lemma cext_put s q e b :
  blk (core s) q = Some b -> pristine s q ->
  e_key e = b_key b -> e_value e = b_value b ->
  Forall2 (fun n nd => heap s !! n = Some nd) (e_nodes e) (b_nodes b) ->
  cext s (set_cache s (<[q := e]> (cache s))).
Proof.
  intros Hb Hp Hk Hv Hf. split; try done.
  - intros Hw q' e' He'. simpl in He'. apply lookup_insert_Some in He' as [[<- <-]|[Hne He']].
    + exists b. split_and!; [done..| |].
      * by eapply Forall2_length.
      * simpl. apply Forall_forall. intros n Hn. apply elem_of_list_lookup in Hn as [i Hi].
        destruct (Forall2_lookup_l _ _ _ _ _ Hf Hi) as (nd & _ & Hnd). by eapply lookup_lt_Some.
    + apply (Hw _ _ He').
  - intros Hw [q' off] nd. unfold hnode. simpl.
    destruct (decide (q' = q)) as [->|Hne].
    + rewrite lookup_insert. intros Hnd.
      assert (b_nodes b !! off = Some nd) as Hoff.
      { destruct (cache s !! q) as [e0|] eqn:E0.
        - destruct (e_nodes e0 !! off) as [n|] eqn:En; [|done].
          destruct (Hp _ _ _ E0 En) as (nd' & H1 & H2).
          unfold cnode in H2. simpl in H2. rewrite Hb in H2. congruence.
        - unfold cnode in Hnd. simpl in Hnd. by rewrite Hb in Hnd. }
      destruct (Forall2_lookup_r _ _ _ _ _ Hf Hoff) as (n & -> & Hn). done.
    + by rewrite lookup_insert_ne.
  - intros Hw q' Hp' e' off n He' Hn. simpl in He'.
    apply lookup_insert_Some in He' as [[<- <-]|[Hne He']].
    + destruct (Forall2_lookup_l _ _ _ _ _ Hf Hn) as (nd & Hoff & Hnd).
      exists nd. split; [done|]. unfold cnode. simpl. by rewrite Hb.
    + by eapply Hp'.
Qed.

(** A reader's own steps do not touch the core. *)
Definition cown (s s' : st) : Prop := cext s s' /\ core s' = core s.
Definition cwp {A} (p : prog A) (Q : A -> st -> Prop) (E : stop -> st -> Prop) (s : st) : Prop :=
  rwp cext cown p Q E s.

Lemma alloc_all_conc nds (Q : list nid -> st -> Prop) (E : stop -> st -> Prop) s :
  (forall ns s', cext s s' -> Forall2 (fun n nd => heap s' !! n = Some nd) ns nds -> Q ns s') ->
  cwp (alloc_all nds) Q E s.
Proof.
  revert Q s. induction nds as [|nd nds IH]; intros Q s HQ.
  - intros s1 H1. by apply HQ.
  - simpl. intros s0 H0 js. set (s1 := set_heap s0 (heap s0 ++ js)).
    assert (cext s0 s1) as H1'. { apply cext_grow; try done. by apply prefix_app_r. }
    assert (cext s s1) as H1 by eauto using cext_trans.
    assert (cext s1 (set_heap s1 (heap s1 ++ [nd]))) as H2.
    { apply cext_grow; try done. by apply prefix_app_r. }
    split; [by split|].
    apply rwp_bind; [apply cext_refl|]. apply IH. intros ns s3 H4 Hf.
    intros s4 H5. apply HQ.
    + eauto using cext_trans.
    + constructor.
      * assert (cext (set_heap s1 (heap s1 ++ [nd])) s4) as H6 by eauto using cext_trans.
        eapply prefix_lookup; [|apply (cx_heap _ _ H6)]. simpl.
        rewrite lookup_app_r by lia. by rewrite Nat.sub_diag.
      * eapply Forall2_impl; [exact Hf|]. intros n nd' H. eapply prefix_lookup; [exact H|].
        apply (cx_heap _ _ H5).
Qed.

Lemma blocks_get_conc q b s (Q : entry -> st -> Prop) (E : stop -> st -> Prop) :
  cwf s -> blk (core s) q = Some b ->
  (forall e s', cext s s' -> cwf s' -> e_key e = b_key b -> e_value e = b_value b ->
     (forall off nd, hnode s (q, off) = Some nd ->
        exists n, e_nodes e !! off = Some n /\ heap s' !! n = Some nd /\ True) ->
     Q e s') ->
  (forall e s', cext s s' -> cwf s' -> hit e (oracle s) (oracle s') -> E (SErr e) s') ->
  cwp (blocks_get q) Q E s.
Proof.
  intros Hw0 Hb0 HQ HE. unfold blocks_get. simpl. intros s1 Hx1.
  pose proof (cx_cwf _ _ Hx1 Hw0) as Hw1.
  pose proof (blk_prefix _ _ _ _ (cx_core _ _ Hx1) Hb0) as Hb1.
  destruct (cache s1 !! q) as [e|] eqn:Ec.
  { intros s2 Hx2. destruct (Hw1 _ _ Ec) as (b' & Hb' & Hk & Hv & Hlen & Hf).
    assert (b' = b) as -> by congruence.
    assert (cext s s2) as Hx by eauto using cext_trans.
    apply HQ; [done|by apply (cx_cwf _ _ Hx)|done..|].
    intros off nd Hnd. apply (cx_hnode _ _ Hx1 Hw0) in Hnd.
    unfold hnode in Hnd. simpl in Hnd. rewrite Ec in Hnd.
    destruct (e_nodes e !! off) as [n|] eqn:En; [|done].
    exists n. split; [done|]. split; [|done].
    eapply prefix_lookup; [exact Hnd|apply (cx_heap _ _ Hx2)]. }
  assert (pristine s1 q) as Hp1. { intros e off n He. congruence. }
  intros s2 Hx2.
  pose proof (cx_cwf _ _ Hx2 Hw1) as Hw2.
  pose proof (blk_prefix _ _ _ _ (cx_core _ _ Hx2) Hb1) as Hb2.
  unfold blk in Hb2. destruct (core s2 !! q) as [raw|] eqn:Er; [|done].
  destruct (decode_block raw) as [| |b0] eqn:Ed; [done..|]. injection Hb2 as ->.
  rewrite exec_get_state. set (s3 := set_oracle s2 (tail (oracle s2))).
  assert (cext s2 s3) as Hx3. { apply cext_grow; try done. apply suffix_tail. }
  split; [by split|].
  assert (cext s s2) as Hx02 by eauto using cext_trans.
  assert (cext s s3) as Hx03 by eauto using cext_trans.
  destruct (exec_get_value q s2 raw Er) as [->|[[Hfl ->]|[Hfl ->]]].
  2,3: intros s4 Hx4; assert (cext s s4) as Hx04 by eauto using cext_trans;
    (apply HE; [done|by apply (cx_cwf _ _ Hx04)|]; eapply hit_l; [apply (cx_oracle _ _ Hx02)|]; eapply hit_r; [apply (cx_oracle _ _ Hx4)|done]).
  rewrite Ed. apply rwp_bind; [apply cext_refl|]. apply alloc_all_conc.
  intros ns s4 Hx4 Hns. intros s5 Hx5.
  assert (cext s s5) as Hx05 by eauto using cext_trans.
  assert (cext s1 s5) as Hx15 by eauto using cext_trans.
  pose proof (cx_pristine _ _ Hx15 Hw1 _ Hp1) as Hp5.
  pose proof (blk_prefix _ _ _ _ (cx_core _ _ Hx05) Hb0) as Hb5.
  assert (Forall2 (fun n nd => heap s5 !! n = Some nd) ns (b_nodes b)) as Hns5.
  { eapply Forall2_impl; [exact Hns|]. intros n nd' H. eapply prefix_lookup; [exact H|].
    apply (cx_heap _ _ Hx5). }
  set (e := Entry ns (b_key b) (b_value b)).
  assert (cext s5 (set_cache s5 (<[q := e]> (cache s5)))) as Hx6.
  { by eapply cext_put. }
  split; [by split|]. intros s6 Hx7.
  assert (cext s s6) as Hx06 by eauto using cext_trans.
  apply HQ; [done|by apply (cx_cwf _ _ Hx06)|done..|].
  intros off nd Hnd.
  apply (cx_hnode _ _ Hx05 Hw0) in Hnd. unfold hnode in Hnd. simpl in Hnd.
  assert (b_nodes b !! off = Some nd) as Hoff.
  { destruct (cache s5 !! q) as [e0|] eqn:E0.
    - destruct (e_nodes e0 !! off) as [n|] eqn:En; [|done].
      destruct (Hp5 _ _ _ E0 En) as (nd' & H1 & H2).
      unfold cnode in H2. simpl in H2. rewrite Hb5 in H2. congruence.
    - unfold cnode in Hnd. simpl in Hnd. by rewrite Hb5 in Hnd. }
  destruct (Forall2_lookup_r _ _ _ _ _ Hns5 Hoff) as (n & Hn & Hnn).
  exists n. split; [done|]. split; [|done].
  eapply prefix_lookup; [exact Hnn|]. etrans; [|apply (cx_heap _ _ Hx7)]. done.
Qed.
