(** The decoder of [Codec.v] accepts exactly the messages of [Wire.v]. *)
From Coq.Strings Require Import Byte.
From Coq Require Import Lia.
From stdpp Require Import prelude.
From Verif Require Import Bytes Codec Model CodecProofs Wire.
Local Open Scope nat_scope.

Scheme wire_val_mut := Minimality for wire_val Sort Prop
with wire_mut := Minimality for wire Sort Prop.
Combined Scheme wire_both from wire_val_mut, wire_mut.

(** ** Varints *)
Lemma varint_dec n bs : varint n bs -> forall left mul acc rest,
  (length bs <= left)%nat -> (n < 2 * 128 ^ N.of_nat (left - 1))%N -> 
  dec_varint_go left mul acc (bs ++ rest) = Some (acc + n * mul, rest)%N.
Proof.
  induction 1 as [b Hb|b n bs Hb Hv IH]; intros [|left] mul acc rest Hl Hn; simpl in Hl; try lia; cbn [dec_varint_go app].
  - rewrite (proj2 (N.ltb_lt _ _) Hb), N.mod_small by done.
    destruct left as [|left]; simpl in *; [|done].
    rewrite (proj2 (N.leb_gt _ _)) by lia. done.
  - rewrite (proj2 (N.ltb_ge _ _) Hb). destruct left as [|left]; [destruct Hv; simpl in Hl; lia|].
    pose proof (Byte.to_N_bounded b) as Hbb.
    assert (Byte.to_N b mod 128 = Byte.to_N b - 128)%N as ->.
    { replace (Byte.to_N b) with (Byte.to_N b - 128 + 1 * 128)%N at 1 by lia. rewrite N.mod_add by done. apply N.mod_small. lia. }
    rewrite IH; [f_equal; f_equal; nia|lia|].
    replace (S (S left) - 1)%nat with (S left) in Hn by lia. rewrite Nat2N.inj_succ, N.pow_succ_r' in Hn.
    replace (S left - 1)%nat with left by lia. nia.
Qed.
Lemma varint64_dec n bs rest : varint64 n bs -> dec_varint (bs ++ rest) = Some (n, rest).
Proof.
  intros (Hv & Hn & Hl). unfold dec_varint. rewrite (varint_dec _ _ Hv) by (first [done|change (10 - 1) with 9; change (2 * 128 ^ N.of_nat 9)%N with (2 ^ 64)%N; done]).
  f_equal. f_equal. lia.
Qed.
Lemma dec_varint_sound_go left : forall mul acc buf n rest, dec_varint_go left mul acc buf = Some (n, rest) ->
  exists bs m, buf = bs ++ rest /\ varint m bs /\ n = (acc + m * mul)%N /\ (length bs <= left)%nat /\ (m < 2 * 128 ^ N.of_nat (left - 1))%N.
Proof.
  induction left as [|left IH]; intros mul acc buf n rest H; cbn [dec_varint_go] in H; [done|].
  destruct buf as [|b buf]; [done|]. pose proof (Byte.to_N_bounded b) as Hbb.
  destruct (Byte.to_N b <? 128)%N eqn:E.
  - apply N.ltb_lt in E. destruct ((left =? 0) && (2 <=? Byte.to_N b)%N) eqn:E2; [done|]. injection H as <- <-.
    exists [b], (Byte.to_N b). split_and!; [done|by constructor|by rewrite N.mod_small|simpl; lia|].
    replace (S left - 1) with left by lia. destruct left as [|left].
    + simpl in E2. apply N.leb_gt in E2. simpl. lia.
    + rewrite Nat2N.inj_succ, N.pow_succ_r'. assert (1 <= 128 ^ N.of_nat left)%N by (pose proof (N.pow_nonzero 128 (N.of_nat left)); lia). lia.
  - apply N.ltb_ge in E. apply IH in H as (bs & m & -> & Hv & -> & Hl & Hm).
    exists (b :: bs), (Byte.to_N b - 128 + 128 * m)%N. split_and!; [done|by constructor| |simpl; lia|].
    + assert (Byte.to_N b mod 128 = Byte.to_N b - 128)%N as ->; [|nia].
      replace (Byte.to_N b) with (Byte.to_N b - 128 + 1 * 128)%N at 1 by lia. rewrite N.mod_add by done. apply N.mod_small. lia.
    + destruct left as [|left]; [destruct Hv; simpl in Hl; lia|].
      replace (S left - 1) with left in Hm by lia. replace (S (S left) - 1) with (S left) by lia.
      rewrite Nat2N.inj_succ, N.pow_succ_r'. assert (1 <= 128 ^ N.of_nat left)%N by (pose proof (N.pow_nonzero 128 (N.of_nat left)); lia). lia.
Qed.
Lemma dec_varint_sound buf n rest : dec_varint buf = Some (n, rest) -> exists bs, buf = bs ++ rest /\ varint64 n bs.
Proof.
  intros H. apply dec_varint_sound_go in H as (bs & m & -> & Hv & -> & Hl & Hm). exists bs. split; [done|].
  change (2 * 128 ^ N.of_nat (10 - 1))%N with (2 ^ 64)%N in Hm. replace (0 + m * 1)%N with m by lia. done.
Qed.
Lemma varint64_nonempty n bs : varint64 n bs -> (1 <= length bs)%nat.
Proof. intros (H & _). destruct H; simpl; lia. Qed.
Lemma enc_varint64 n : u64 n -> varint64 n (enc_varint n).
Proof.
  intros Hn. pose proof (dec_enc_varint n [] Hn) as H. apply dec_varint_sound in H as (bs & E & H).
  rewrite !app_nil_r in E. by rewrite E.
Qed.

(** ** Keys and lengths *)
Lemma key_dec t w tb rest : (1 <= t < 2 ^ 29)%N -> (w <= 5)%N -> varint64 (t * 8 + w) tb -> dec_key (tb ++ rest) = Some (t, w, rest).
Proof.
  intros Ht Hw H. unfold dec_key. rewrite (varint64_dec _ _ _ H).
  assert ((t * 8 + w) / 8 = t)%N as E1 by (rewrite N.div_add_l by done; rewrite (N.div_small w 8) by lia; lia).
  assert ((t * 8 + w) mod 8 = w)%N as E2 by (rewrite N.add_comm, N.mod_add by done; apply N.mod_small; lia).
  rewrite E1, E2. change (2 ^ 29)%N with 536870912%N in Ht.
  rewrite (proj2 (N.ltb_ge _ _)) by lia. rewrite (proj2 (N.ltb_ge 5 w)) by lia. rewrite (proj2 (N.eqb_neq t 0)) by lia. done.
Qed.
Lemma dec_key_sound buf t w rest : dec_key buf = Some (t, w, rest) ->
  exists tb, buf = tb ++ rest /\ varint64 (t * 8 + w) tb /\ (1 <= t < 2 ^ 29)%N /\ (w <= 5)%N.
Proof.
  unfold dec_key. destruct (dec_varint buf) as [[k rest']|] eqn:E; [|done].
  destruct (4294967295 <? k)%N eqn:E1; [done|]. destruct (5 <? k mod 8)%N eqn:E2; [done|]. destruct (k / 8 =? 0)%N eqn:E3; [done|].
  intros [= <- <- <-]. apply dec_varint_sound in E as (bs & -> & Hv). exists bs. apply N.ltb_ge in E1, E2. apply N.eqb_neq in E3.
  pose proof (N.div_mod k 8 ltac:(done)) as Hd. split_and!; [done| | | |done].
  - by replace (k / 8 * 8 + k mod 8)%N with k by lia.
  - lia.
  - apply N.div_lt_upper_bound; [done|]. change (8 * 2 ^ 29)%N with 4294967296%N. lia.
Qed.
Lemma len_bytes_dec b bs rest : varint64 (N.of_nat (length b)) bs -> dec_len_bytes ((bs ++ b) ++ rest) = Some (b, rest).
Proof.
  intros H. unfold dec_len_bytes. rewrite <-app_assoc, (varint64_dec _ _ _ H). unfold blen. rewrite app_length.
  rewrite (proj2 (N.ltb_ge _ _)) by lia. by rewrite Nat2N.id, take_app, drop_app.
Qed.
Lemma dec_len_bytes_sound buf b rest : dec_len_bytes buf = Some (b, rest) ->
  exists bs, buf = (bs ++ b) ++ rest /\ varint64 (N.of_nat (length b)) bs.
Proof.
  unfold dec_len_bytes. destruct (dec_varint buf) as [[n r]|] eqn:E; [|done]. unfold blen. destruct (N.of_nat (length r) <? n)%N eqn:E1; [done|].
  intros [= <- <-]. apply N.ltb_ge in E1. apply dec_varint_sound in E as (bs & -> & Hv). exists bs. split.
  - by rewrite <-app_assoc, take_drop.
  - rewrite take_length_le by lia. by rewrite N2Nat.id.
Qed.
Lemma advance_dec n b rest : length b = n -> advance (N.of_nat n) (b ++ rest) = Some rest.
Proof.
  intros <-. unfold advance, blen. rewrite app_length, (proj2 (N.ltb_ge _ _)) by lia. by rewrite Nat2N.id, drop_app.
Qed.
Lemma advance_sound n buf rest : advance n buf = Some rest -> exists b, buf = b ++ rest /\ N.of_nat (length b) = n.
Proof.
  unfold advance, blen. destruct (N.of_nat (length buf) <? n)%N eqn:E; [done|]. intros [= <-]. apply N.ltb_ge in E.
  exists (take (N.to_nat n) buf). rewrite take_drop. split; [done|]. rewrite take_length_le by lia. lia.
Qed.

Lemma wire_val_wt d t w v bs : wire_val d t w v bs -> (w <= 5)%N /\ w <> 4%N.
Proof. destruct 1; split; done || lia. Qed.

(** ** Skipping *)
Lemma skip_both :
  (forall d t w v bs, wire_val d t w v bs -> forall rest fuel, (1 <= t < 2 ^ 29)%N -> (length bs < fuel)%nat ->
     skip_field fuel d t w (bs ++ rest) = Some rest) /\
  (forall d fs bs, wire d fs bs -> forall t eb rest fuel, (1 <= t < 2 ^ 29)%N -> varint64 (t * 8 + 4) eb ->
     (length bs + length eb <= fuel)%nat ->
     skip_group fuel d t (bs ++ eb ++ rest) = Some rest).
Proof.
  apply wire_both.
  - intros d t n bs H rest [|fuel] Ht Hf; [lia|]. cbn [skip_field]. simpl. by rewrite (varint64_dec _ _ _ H).
  - intros d t b H rest [|fuel] Ht Hf; [lia|]. cbn [skip_field]. change (1 =? 0)%N with false. change (1 =? 1)%N with true. cbv iota.
    change 8%N with (N.of_nat 8). by apply advance_dec.
  - intros d t b bs H rest [|fuel] Ht Hf; [lia|]. cbn [skip_field]. change (2 =? 0)%N with false. change (2 =? 1)%N with false.
    change (2 =? 5)%N with false. change (2 =? 2)%N with true. cbv iota. by rewrite (len_bytes_dec _ _ _ H).
  - intros d t b H rest [|fuel] Ht Hf; [lia|]. cbn [skip_field]. change (5 =? 0)%N with false. change (5 =? 1)%N with false. change (5 =? 5)%N with true. cbv iota.
    change 4%N with (N.of_nat 4). by apply advance_dec.
  - intros d t fs bs eb Hw IH He rest [|fuel] Ht Hf; [lia|]. cbn [skip_field]. change (3 =? 0)%N with false. change (3 =? 1)%N with false.
    change (3 =? 5)%N with false. change (3 =? 2)%N with false. change (3 =? 3)%N with true. cbv iota.
    rewrite <-app_assoc. apply IH; [done..|]. rewrite app_length in Hf. lia.
  - intros d t eb rest fuel Ht He Hf. pose proof (varint64_nonempty _ _ He). destruct fuel as [|fuel]; [simpl in Hf; lia|].
    cbn [skip_group app]. rewrite (key_dec t 4 eb rest Ht ltac:(lia) He). change (4 =? 4)%N with true. cbv iota. by rewrite N.eqb_refl.
  - intros d t' w v fs tb vb bs Ht' Htb Hv IHv Hw IH t eb rest fuel Ht He Hf.
    pose proof (varint64_nonempty _ _ He). pose proof (varint64_nonempty _ _ Htb). rewrite !app_length in Hf.
    destruct fuel as [|fuel]; [lia|]. cbn [skip_group]. rewrite <-!app_assoc.
    pose proof (wire_val_wt _ _ _ _ _ Hv) as (Hw5 & Hw4).
    rewrite (key_dec _ _ _ _ Ht' Hw5 Htb). rewrite (proj2 (N.eqb_neq w 4) Hw4).
    rewrite IHv by (done || lia). apply IH; [done..|lia].
Qed.
Lemma skip_sound fuel :
  (forall d t w buf rest, skip_field fuel d t w buf = Some rest -> exists v bs, buf = bs ++ rest /\ wire_val d t w v bs) /\
  (forall d t buf rest, skip_group fuel d t buf = Some rest -> exists fs bs eb, buf = bs ++ eb ++ rest /\ wire d fs bs /\ varint64 (t * 8 + 4) eb).
Proof.
  induction fuel as [|fuel [IH1 IH2]]; [done|]. split.
  - intros [|d] t w buf rest H; cbn [skip_field] in H; [done|].
    destruct (w =? 0)%N eqn:E0; [apply N.eqb_eq in E0 as ->|].
    { destruct (dec_varint buf) as [[n r]|] eqn:E; [|done]. injection H as <-. apply dec_varint_sound in E as (bs & -> & Hv).
      exists (VInt n), bs. split; [done|]. by constructor. }
    destruct (w =? 1)%N eqn:E1; [apply N.eqb_eq in E1 as ->|].
    { apply advance_sound in H as (b & -> & Hb). exists (V64 b), b. split; [done|]. constructor. lia. }
    destruct (w =? 5)%N eqn:E5; [apply N.eqb_eq in E5 as ->|].
    { apply advance_sound in H as (b & -> & Hb). exists (V32 b), b. split; [done|]. constructor. lia. }
    destruct (w =? 2)%N eqn:E2; [apply N.eqb_eq in E2 as ->|].
    { destruct (dec_len_bytes buf) as [[b r]|] eqn:E; [|done]. injection H as <-. apply dec_len_bytes_sound in E as (bs & -> & Hv).
      exists (VLen b), (bs ++ b). split; [done|]. by constructor. }
    destruct (w =? 3)%N eqn:E3; [apply N.eqb_eq in E3 as ->|done].
    apply IH2 in H as (fs & bs & eb & -> & Hw & He). exists (VGroup fs), (bs ++ eb). split; [by rewrite <-app_assoc|]. by constructor.
  - intros d t buf rest H. cbn [skip_group] in H. destruct (dec_key buf) as [[[t' w] r]|] eqn:E; [|done].
    apply dec_key_sound in E as (tb & -> & Htb & Ht' & Hw').
    destruct (w =? 4)%N eqn:E4; [apply N.eqb_eq in E4 as ->|].
    { destruct (t' =? t)%N eqn:Et; [|done]. apply N.eqb_eq in Et as ->. injection H as <-. exists [], [], tb. split; [done|]. split; [constructor|done]. }
    destruct (skip_field fuel d t' w r) as [r'|] eqn:Ef; [|done].
    apply IH1 in Ef as (v & vb & -> & Hv). apply IH2 in H as (fs & bs & eb & -> & Hw & He).
    exists ((t', v) :: fs), (tb ++ vb ++ bs), eb. split; [by rewrite <-!app_assoc|]. split; [|done]. by econstructor.
Qed.

(** ** Messages: what a field does to what has been read so far *)
Section message.
Context {M : Type} (mf : M -> N -> N -> bytes -> option (M * bytes)) (d : nat) (upd : M -> N -> fval -> M -> Prop).

Inductive steps : M -> list (N * fval) -> M -> Prop :=
| st_nil m : steps m [] m
| st_cons m t v m1 fs m2 : upd m t v m1 -> steps m1 fs m2 -> steps m ((t, v) :: fs) m2.

Definition complete : Prop := forall m t w v vb rest m', (1 <= t < 2 ^ 29)%N -> wire_val d t w v vb -> upd m t v m' -> mf m t w (vb ++ rest) = Some (m', rest).
Definition sound : Prop := forall m t w buf m' rest, mf m t w buf = Some (m', rest) ->
  exists v vb, buf = vb ++ rest /\ wire_val d t w v vb /\ upd m t v m'.

Lemma merge_complete fs : complete -> forall bs rest m m' fuel, wire d fs bs -> steps m fs m' -> (length bs <= fuel)%nat ->
  merge_to mf fuel (length rest) m (bs ++ rest) = Some (m', rest).
Proof.
  intros Hc. induction fs as [|[t v] fs IH]; intros bs rest m m' fuel Hw Hs Hf; inversion Hw; subst; inversion Hs; subst.
  - by apply merge_to_done.
  - pose proof (varint64_nonempty _ _ ltac:(eassumption)) as Hne. rewrite !app_length in Hf. destruct fuel as [|fuel]; [lia|].
    cbn [merge_to]. rewrite !app_length. rewrite (proj2 (Nat.leb_gt _ _)) by lia. rewrite <-!app_assoc.
    erewrite key_dec by (first [eassumption|eapply wire_val_wt; eassumption]).
    erewrite Hc by eassumption. apply IH; [done..|lia].
Qed.
Lemma merge_sound : sound -> forall fuel limit m buf m' rest, merge_to mf fuel limit m buf = Some (m', rest) -> (limit <= length buf)%nat -> length rest = limit ->
  exists fs bs, buf = bs ++ rest /\ wire d fs bs /\ steps m fs m'.
Proof.
  intros Hsd fuel limit. revert fuel.
  assert (forall fuel m buf m' rest, merge_to mf fuel limit m buf = Some (m', rest) -> length rest = limit -> 
    exists fs bs, buf = bs ++ rest /\ wire d fs bs /\ steps m fs m') as H0; [|intros; by eapply H0].
  induction fuel as [|fuel IH]; intros m buf m' rest H Hr; cbn [merge_to] in H; destruct (length buf <=? limit) eqn:E.
  - injection H as <- <-. exists [], []. split; [done|]. split; constructor.
  - done.
  - injection H as <- <-. exists [], []. split; [done|]. split; constructor.
  - destruct (dec_key buf) as [[[t w] r]|] eqn:Ek; [|done]. apply dec_key_sound in Ek as (tb & -> & Htb & Ht & Hw).
    destruct (mf m t w r) as [[m1 r1]|] eqn:Em; [|done]. apply Hsd in Em as (v & vb & -> & Hv & Hu).
    apply IH in H as (fs & bs & -> & Hws & Hs); [|done]. exists ((t, v) :: fs), (tb ++ vb ++ bs).
    split; [by rewrite <-!app_assoc|]. split; by econstructor.
Qed.
Lemma decode_iff m0 buf m : complete -> sound -> decode_msg mf m0 buf = Some m <-> exists fs, wire d fs buf /\ steps m0 fs m.
Proof.
  intros Hc Hs. unfold decode_msg. split.
  - destruct (merge_to mf (length buf) 0 m0 buf) as [[m1 rest]|] eqn:E; [|done]. intros [= ->].
    assert (length rest = 0) as Hr.
    { clear -E. revert E. generalize (length buf) as fuel. intros fuel. revert m0 buf. induction fuel as [|fuel IH]; intros m0 buf H; cbn [merge_to] in H.
      - destruct (length buf <=? 0) eqn:El; [|done]. injection H as <- <-. apply Nat.leb_le in El. lia.
      - destruct (length buf <=? 0) eqn:El; [injection H as <- <-; apply Nat.leb_le in El; lia|].
        destruct (dec_key buf) as [[[t w] r]|]; [|done]. destruct (mf m0 t w r) as [[m2 r2]|]; [|done]. by eapply IH. }
    apply merge_sound in E as (fs & bs & -> & Hw & Hst); [|done|lia|done]. destruct rest; [|done]. rewrite app_nil_r. by exists fs.
  - intros (fs & Hw & Hst). pose proof (merge_complete fs Hc buf [] m0 m (length buf) Hw Hst ltac:(lia)) as H.
    rewrite app_nil_r in H. simpl in H. by rewrite H.
Qed.
Lemma region_complete fs b bs rest m0 m : complete -> wire d fs b -> steps m0 fs m -> varint64 (N.of_nat (length b)) bs ->
  merge_region mf m0 ((bs ++ b) ++ rest) = Some (m, rest).
Proof.
  intros Hc Hw Hs Hv. unfold merge_region. rewrite <-app_assoc, (varint64_dec _ _ _ Hv). unfold blen. rewrite app_length.
  rewrite (proj2 (N.ltb_ge _ _)) by lia. replace (length b + length rest - N.to_nat (N.of_nat (length b))) with (length rest) by lia.
  rewrite (merge_complete fs Hc b rest m0 m) by (done || lia). by rewrite Nat.eqb_refl.
Qed.
Lemma region_sound buf m0 m rest : sound -> merge_region mf m0 buf = Some (m, rest) ->
  exists fs b bs, buf = (bs ++ b) ++ rest /\ wire d fs b /\ steps m0 fs m /\ varint64 (N.of_nat (length b)) bs.
Proof.
  intros Hsd. unfold merge_region. destruct (dec_varint buf) as [[n r]|] eqn:E; [|done]. unfold blen. destruct (N.of_nat (length r) <? n)%N eqn:E1; [done|].
  apply N.ltb_ge in E1. destruct (merge_to _ _ _ _ _) as [[m1 r1]|] eqn:E2; [|done]. destruct (length r1 =? _) eqn:E3; [|done].
  intros [= <- <-]. apply Nat.eqb_eq in E3. apply merge_sound in E2 as (fs & b & -> & Hw & Hs); [|done|lia|done].
  apply dec_varint_sound in E as (bs & -> & Hv). exists fs, b, bs. rewrite app_length in E3, E1. split; [by rewrite <-app_assoc|]. split_and!; [done..|].
  by replace (N.of_nat (length b)) with n by lia.
Qed.
End message.

Lemma skip_msg_complete {M} d (m : M) t w v vb rest : (1 <= t < 2 ^ 29)%N -> wire_val d t w v vb -> skip_msg d m t w (vb ++ rest) = Some (m, rest).
Proof.
  intros Ht Hv. unfold skip_msg. rewrite (proj1 skip_both _ _ _ _ _ Hv) by (done || (rewrite app_length; lia)). done.
Qed.
Lemma skip_msg_sound {M} d (m : M) t w buf m' rest : skip_msg d m t w buf = Some (m', rest) ->
  m' = m /\ exists v vb, buf = vb ++ rest /\ wire_val d t w v vb.
Proof.
  unfold skip_msg. destruct (skip_field _ d t w buf) as [r|] eqn:E; [|done]. intros [= <- <-]. split; [done|]. by eapply (proj1 (skip_sound _)).
Qed.

(** ** Fields of bytes *)
Lemma merge_bytes_complete d t w b vb rest : wire_val d t w (VLen b) vb -> merge_bytes w (vb ++ rest) = Some (b, rest).
Proof. intros H. inversion H; subst. unfold merge_bytes. simpl. by apply len_bytes_dec. Qed.
Lemma merge_bytes_sound d t w buf b rest : merge_bytes w buf = Some (b, rest) -> exists vb, buf = vb ++ rest /\ wire_val (S d) t w (VLen b) vb.
Proof.
  unfold merge_bytes. destruct (w =? 2)%N eqn:E; [|done]. apply N.eqb_eq in E as ->. intros H. apply dec_len_bytes_sound in H as (bs & -> & Hv).
  exists (bs ++ b). split; [done|]. by constructor.
Qed.

(** ** Repeated numbers *)
Lemma packed_complete ms b : varints ms b -> forall fuel acc rest, (length b <= fuel)%nat -> packed_to fuel (length rest) acc (b ++ rest) = Some (acc ++ ms, rest).
Proof.
  induction 1 as [|n b ms bs Hv Hvs IH]; intros fuel acc rest Hf.
  - destruct fuel; cbn [packed_to app]; by rewrite Nat.leb_refl, app_nil_r.
  - pose proof (varint64_nonempty _ _ Hv). rewrite app_length in Hf. destruct fuel as [|fuel]; [lia|]. cbn [packed_to].
    rewrite !app_length, (proj2 (Nat.leb_gt _ _)) by lia. rewrite <-app_assoc, (varint64_dec _ _ _ Hv), IH by lia. by rewrite <-app_assoc.
Qed.
Lemma packed_sound fuel : forall limit acc buf r rest, packed_to fuel limit acc buf = Some (r, rest) ->
  exists ms b, buf = b ++ rest /\ varints ms b /\ r = acc ++ ms.
Proof.
  induction fuel as [|fuel IH]; intros limit acc buf r rest H; cbn [packed_to] in H; destruct (length buf <=? limit).
  - injection H as <- <-. exists [], []. split_and!; [done|constructor|by rewrite app_nil_r].
  - done.
  - injection H as <- <-. exists [], []. split_and!; [done|constructor|by rewrite app_nil_r].
  - destruct (dec_varint buf) as [[v r1]|] eqn:E; [|done]. apply dec_varint_sound in E as (bs & -> & Hv).
    apply IH in H as (ms & b & -> & Hvs & ->). exists (v :: ms), (bs ++ b). split_and!; [by rewrite <-app_assoc|by constructor|by rewrite <-app_assoc].
Qed.
Lemma u64s_complete d t w v vb acc ns rest : wire_val d t w v vb -> numbers [v] ns -> merge_u64s acc w (vb ++ rest) = Some (acc ++ ns, rest).
Proof.
  intros Hw Hn. inversion Hn as [|n vs ns' Hn'|b ms vs ns' Hm Hn']; subst; inversion Hn'; subst; inversion Hw; subst; unfold merge_u64s; simpl.
  - by erewrite varint64_dec.
  - rewrite app_nil_r. rewrite <-app_assoc. erewrite varint64_dec by done. unfold blen. rewrite app_length, (proj2 (N.ltb_ge _ _)) by lia.
    replace (length b + length rest - N.to_nat (N.of_nat (length b))) with (length rest) by lia.
    rewrite (packed_complete _ _ Hm) by lia. by rewrite Nat.eqb_refl.
Qed.
Lemma u64s_sound d t w buf acc r rest : merge_u64s acc w buf = Some (r, rest) ->
  exists v vb ns, buf = vb ++ rest /\ wire_val (S d) t w v vb /\ numbers [v] ns /\ r = acc ++ ns.
Proof.
  unfold merge_u64s. destruct (w =? 2)%N eqn:E2; [apply N.eqb_eq in E2 as ->|].
  - destruct (dec_varint buf) as [[n r0]|] eqn:E; [|done]. unfold blen. destruct (N.of_nat (length r0) <? n)%N eqn:E1; [done|]. apply N.ltb_ge in E1.
    destruct (packed_to _ _ _ _) as [[a r1]|] eqn:E3; [|done]. destruct (length r1 =? _) eqn:E4; [|done]. intros [= <- <-]. apply Nat.eqb_eq in E4.
    apply packed_sound in E3 as (ms & b & -> & Hm & ->). apply dec_varint_sound in E as (bs & -> & Hv). rewrite app_length in E4, E1.
    exists (VLen b), (bs ++ b), (ms ++ []). split; [by rewrite <-app_assoc|]. split; [|split; [by constructor; [done|constructor]|by rewrite app_nil_r]].
    constructor. by replace (N.of_nat (length b)) with n by lia.
  - destruct (w =? 0)%N eqn:E0; [apply N.eqb_eq in E0 as ->|done]. destruct (dec_varint buf) as [[n r0]|] eqn:E; [|done]. intros [= <- <-].
    apply dec_varint_sound in E as (bs & -> & Hv). exists (VInt n), bs, [n]. split_and!; [done|by constructor|by repeat constructor|done].
Qed.
Lemma numbers_cons v vs ns : numbers (v :: vs) ns <-> exists n1 n2, numbers [v] n1 /\ numbers vs n2 /\ ns = n1 ++ n2.
Proof.
  split.
  - inversion 1; subst.
    + eexists [_], _. split_and!; [by repeat constructor|done|done].
    + eexists (_ ++ []), _. split_and!; [by constructor; [|constructor]|done|by rewrite app_nil_r].
  - intros (n1 & n2 & H1 & H2 & ->). inversion H1 as [|n vs' ns' Hn'|b ms vs' ns' Hm Hn']; subst; inversion Hn'; subst.
    + by constructor.
    + rewrite app_nil_r. by constructor.
Qed.

(** ** Level *)
Definition upd_level (m : level) (t : N) (v : fval) (m' : level) : Prop :=
  (t = 1%N /\ exists ns, numbers [v] ns /\ m' = Level (lv_keys m ++ ns) (lv_children m)) \/
  (t = 2%N /\ exists ns, numbers [v] ns /\ m' = Level (lv_keys m) (lv_children m ++ ns)) \/
  (t <> 1%N /\ t <> 2%N /\ m' = m).
Lemma level_complete : complete merge_level 99 upd_level.
Proof.
  intros m t w v vb rest m' Ht Hv [(-> & ns & Hn & ->)|[(-> & ns & Hn & ->)|(H1 & H2 & ->)]]; unfold merge_level.
  - simpl. by erewrite u64s_complete.
  - simpl. by erewrite u64s_complete.
  - rewrite (proj2 (N.eqb_neq _ _) H1), (proj2 (N.eqb_neq _ _) H2). by eapply skip_msg_complete.
Qed.
Lemma level_sound : sound merge_level 99 upd_level.
Proof.
  intros m t w buf m' rest. unfold merge_level.
  destruct (t =? 1)%N eqn:E1; [apply N.eqb_eq in E1 as ->|].
  { destruct (merge_u64s _ _ _) as [[ks r]|] eqn:E; [|done]. intros [= <- <-]. apply (u64s_sound 98 1) in E as (v & vb & ns & -> & Hv & Hn & ->).
    exists v, vb. split_and!; [done..|]. left. eauto. }
  destruct (t =? 2)%N eqn:E2; [apply N.eqb_eq in E2 as ->|].
  { destruct (merge_u64s _ _ _) as [[ks r]|] eqn:E; [|done]. intros [= <- <-]. apply (u64s_sound 98 2) in E as (v & vb & ns & -> & Hv & Hn & ->).
    exists v, vb. split_and!; [done..|]. right. left. eauto. }
  intros H. apply skip_msg_sound in H as (-> & v & vb & -> & Hv). exists v, vb. split_and!; [done..|]. right. right.
  apply N.eqb_neq in E1, E2. done.
Qed.
Lemma values_cons t t' v fs : values t ((t', v) :: fs) = if N.eqb t' t then v :: values t fs else values t fs.
Proof. unfold values. simpl. by destruct (N.eqb t' t). Qed.
Lemma steps_level fs : forall m l, steps upd_level m fs l <->
  exists ks cs, numbers (values 1 fs) ks /\ numbers (values 2 fs) cs /\ l = Level (lv_keys m ++ ks) (lv_children m ++ cs).
Proof.
  induction fs as [|[t v] fs IH]; intros m l; split.
  - inversion 1; subst. exists [], []. split_and!; [constructor..|]. rewrite !app_nil_r. by destruct l.
  - intros (ks & cs & H1 & H2 & ->). inversion H1; inversion H2; subst. rewrite !app_nil_r. destruct m. constructor.
  - inversion 1 as [|? ? ? m1 ? ? Hu Hs]; subst. apply IH in Hs as (ks & cs & Hk & Hc & ->). rewrite !values_cons.
    destruct Hu as [(-> & ns & Hn & ->)|[(-> & ns & Hn & ->)|(H1 & H2 & ->)]].
    + exists (ns ++ ks), cs. split_and!; [by simpl; apply numbers_cons; eauto|done|simpl; by rewrite app_assoc].
    + exists ks, (ns ++ cs). split_and!; [done|by simpl; apply numbers_cons; eauto|simpl; by rewrite app_assoc].
    + rewrite (proj2 (N.eqb_neq _ _) H1), (proj2 (N.eqb_neq _ _) H2). eauto.
  - rewrite !values_cons. intros (ks & cs & Hk & Hc & ->).
    destruct (N.eqb_spec t 1) as [->|H1]; [|destruct (N.eqb_spec t 2) as [->|H2]].
    + simpl in Hc. apply numbers_cons in Hk as (n1 & n2 & Hn1 & Hn2 & ->). eapply st_cons; [left; eauto|]. apply IH. simpl. exists n2, cs. split_and!; [done..|]. by rewrite app_assoc.
    + apply numbers_cons in Hc as (n1 & n2 & Hn1 & Hn2 & ->). eapply st_cons; [right; left; eauto|]. apply IH. simpl. exists ks, n2. split_and!; [done..|]. by rewrite app_assoc.
    + eapply st_cons; [right; right; eauto|]. apply IH. eauto.
Qed.
Lemma flat_pairs cs : forall rs, pair_up cs = Some rs <-> cs = concat (map (fun r : ref => [N.of_nat (fst r); N.of_nat (snd r)]) rs).
Proof.
  assert (forall n cs, (length cs <= n)%nat -> forall rs, pair_up cs = Some rs <-> cs = concat (map (fun r : ref => [N.of_nat (fst r); N.of_nat (snd r)]) rs)) as H; [|by eapply H].
  clear. induction n as [|n IH]; intros [|a [|b cs]] Hn rs; simpl in Hn; try lia.
  - split; [by intros [= <-]|]. by destruct rs as [|[] ?].
  - split; [by intros [= <-]|]. by destruct rs as [|[] ?].
  - split; [done|]. by destruct rs as [|[] ?].
  - cbn [pair_up]. split.
    + destruct (pair_up cs) as [rs'|] eqn:E; [|done]. intros [= <-]. apply IH in E as ->; [|lia]. simpl. by rewrite !N2Nat.id.
    + destruct rs as [|[x y] rs]; [done|]. simpl. intros [= -> -> Hcs]. rewrite (proj2 (IH cs ltac:(lia) rs) Hcs). simpl. by rewrite !Nat2N.id.
Qed.
Lemma to_node l nd : level_to_node l = Some nd <-> lv_keys l = map N.of_nat (n_keys nd) /\
  lv_children l = concat (map (fun r : ref => [N.of_nat (fst r); N.of_nat (snd r)]) (n_children nd)).
Proof.
  unfold level_to_node. split.
  - destruct (pair_up (lv_children l)) as [cs|] eqn:E; [|done]. intros [= <-]. simpl. apply flat_pairs in E. split; [|done].
    rewrite map_map. symmetry. rewrite <-(map_id (lv_keys l)) at 2. apply map_ext. intros x. apply N2Nat.id.
  - intros (H1 & H2). apply flat_pairs in H2. rewrite H2. simpl. f_equal. destruct nd as [ks cs]. simpl in *. rewrite H1, map_map. f_equal.
    rewrite <-(map_id ks) at 2. apply map_ext. intros x. apply Nat2N.id.
Qed.
Definition level_msg (l : level) (b : bytes) : Prop := exists fs, wire 99 fs b /\ steps upd_level (Level [] []) fs l.
Lemma level_msg_iff nd b : level_message nd b <-> exists l, level_msg l b /\ level_to_node l = Some nd.
Proof.
  split.
  - intros (fs & Hw & Hk & Hc). eexists. split; [exists fs; split; [done|]; apply steps_level; eauto|]. by apply to_node.
  - intros (l & (fs & Hw & Hs) & Hn). apply steps_level in Hs as (ks & cs & Hk & Hc & ->). apply to_node in Hn as (H1 & H2). simpl in *. subst.
    by exists fs.
Qed.

(** ** YoloIndex *)
Definition upd_yolo (m : list level) (t : N) (v : fval) (m' : list level) : Prop :=
  (t = 1%N /\ exists b l, v = VLen b /\ level_msg l b /\ m' = m ++ [l]) \/ (t <> 1%N /\ m' = m).
Lemma yolo_complete : complete merge_yolo 100 upd_yolo.
Proof.
  intros m t w v vb rest m' Ht Hv [(-> & b & l & -> & (fs & Hw & Hs) & ->)|(H1 & ->)]; unfold merge_yolo.
  - inversion Hv; subst. simpl. by erewrite region_complete by (done || apply level_complete).
  - rewrite (proj2 (N.eqb_neq _ _) H1). by eapply skip_msg_complete.
Qed.
Lemma yolo_sound : sound merge_yolo 100 upd_yolo.
Proof.
  intros m t w buf m' rest. unfold merge_yolo.
  destruct (t =? 1)%N eqn:E1; [apply N.eqb_eq in E1 as ->|].
  { destruct (w =? 2)%N eqn:E2; [apply N.eqb_eq in E2 as ->|done].
    destruct (merge_region _ _ _) as [[l r]|] eqn:E; [|done]. intros [= <- <-].
    apply (region_sound _ _ _ _ _ _ _ level_sound) in E as (fs & b & bs & -> & Hw & Hs & Hv).
    exists (VLen b), (bs ++ b). split; [done|]. split; [by constructor|]. left. split; [done|]. exists b, l. split_and!; [done|by exists fs|done]. }
  intros H. apply skip_msg_sound in H as (-> & v & vb & -> & Hv). exists v, vb. split_and!; [done..|]. right. apply N.eqb_neq in E1. done.
Qed.
Lemma steps_yolo fs : forall m ls, steps upd_yolo m fs ls <->
  exists l bs, values 1 fs = map VLen bs /\ Forall2 level_msg l bs /\ ls = m ++ l.
Proof.
  induction fs as [|[t v] fs IH]; intros m ls; split.
  - inversion 1; subst. exists [], []. split_and!; [done|constructor|by rewrite app_nil_r].
  - intros (l & bs & Hb & Hl & ->). destruct bs; [|done]. inversion Hl; subst. rewrite app_nil_r. constructor.
  - inversion 1 as [|? ? ? m1 ? ? Hu Hs]; subst. apply IH in Hs as (l & bs & Hb & Hl & ->). rewrite !values_cons.
    destruct Hu as [(-> & b & l1 & -> & Hl1 & ->)|(H1 & ->)].
    + exists (l1 :: l), (b :: bs). split_and!; [simpl; by f_equal|by constructor|by rewrite <-app_assoc].
    + rewrite (proj2 (N.eqb_neq _ _) H1). eauto.
  - rewrite !values_cons. intros (l & bs & Hb & Hl & ->). destruct (N.eqb_spec t 1) as [->|H1].
    + destruct bs as [|b bs]; [done|]. injection Hb as -> Hb. inversion Hl as [|l1 ? l2 ? Hl1 Hl2]; subst.
      eapply st_cons; [left; split; [done|]; eauto|]. apply IH. exists l2, bs. split_and!; [done..|by rewrite <-app_assoc].
    + eapply st_cons; [right; eauto|]. apply IH. eauto.
Qed.
Lemma index_iff nds b : index_message nds b <-> exists ls, dec_yolo b = Some ls /\ mapM level_to_node ls = Some nds.
Proof.
  unfold dec_yolo. split.
  - intros (fs & l & Hw & Hb & Hl).
    assert (exists ls, Forall2 level_msg ls l /\ mapM level_to_node ls = Some nds) as (ls & H1 & H2).
    { clear -Hl. induction Hl as [|nd b nds l Hb _ (ls & H1 & H2)]; [by exists []|].
      apply level_msg_iff in Hb as (lv & Hm & Hn). exists (lv :: ls). split; [by constructor|]. simpl. by rewrite Hn, H2. }
    exists ls. split; [|done]. apply (decode_iff _ 100 upd_yolo); [apply yolo_complete|apply yolo_sound|]. exists fs. split; [done|].
    apply steps_yolo. exists ls, l. done.
  - intros (ls & Hd & Hn). apply (decode_iff _ 100 upd_yolo) in Hd as (fs & Hw & Hs); [|apply yolo_complete|apply yolo_sound].
    apply steps_yolo in Hs as (l & bs & Hb & Hl & ->). simpl in Hn. exists fs, bs. split_and!; [done..|].
    clear -Hl Hn. revert nds Hn. induction Hl as [|lv b ls bs H1 _ IH]; intros nds Hn; simpl in Hn.
    + injection Hn as <-. constructor.
    + destruct (level_to_node lv) as [nd|] eqn:E; [|done]. simpl in Hn. destruct (mapM level_to_node ls) as [nds'|]; [|done]. injection Hn as <-.
      constructor; [|by apply IH]. apply level_msg_iff. eauto.
Qed.

(** ** Node *)
Definition upd_node (m : node_schema) (t : N) (v : fval) (m' : node_schema) : Prop :=
  (t = 1%N /\ exists b, v = VLen b /\ m' = NodeSchema b (ns_key m) (ns_value m)) \/
  (t = 2%N /\ exists b, v = VLen b /\ m' = NodeSchema (ns_index m) b (ns_value m)) \/
  (t = 3%N /\ exists b, v = VLen b /\ m' = NodeSchema (ns_index m) (ns_key m) (Some b)) \/
  (t <> 1%N /\ t <> 2%N /\ t <> 3%N /\ m' = m).
Lemma node_complete : complete merge_node_schema 100 upd_node.
Proof.
  intros m t w v vb rest m' Ht Hv [(-> & b & -> & ->)|[(-> & b & -> & ->)|[(-> & b & -> & ->)|(H1 & H2 & H3 & ->)]]]; unfold merge_node_schema.
  1-3: simpl; by erewrite merge_bytes_complete.
  rewrite (proj2 (N.eqb_neq _ _) H1), (proj2 (N.eqb_neq _ _) H2), (proj2 (N.eqb_neq _ _) H3). by eapply skip_msg_complete.
Qed.
Lemma node_sound : sound merge_node_schema 100 upd_node.
Proof.
  intros m t w buf m' rest. unfold merge_node_schema, upd_node.
  destruct (t =? 1)%N eqn:E1; [apply N.eqb_eq in E1 as ->|].
  { destruct (merge_bytes w buf) as [[b r]|] eqn:E; [|done]. intros [= <- <-]. apply (merge_bytes_sound 99 1) in E as (vb & -> & Hv). exists (VLen b), vb. naive_solver. }
  destruct (t =? 2)%N eqn:E2; [apply N.eqb_eq in E2 as ->|].
  { destruct (merge_bytes w buf) as [[b r]|] eqn:E; [|done]. intros [= <- <-]. apply (merge_bytes_sound 99 2) in E as (vb & -> & Hv). exists (VLen b), vb. naive_solver. }
  destruct (t =? 3)%N eqn:E3; [apply N.eqb_eq in E3 as ->|].
  { destruct (merge_bytes w buf) as [[b r]|] eqn:E; [|done]. intros [= <- <-]. apply (merge_bytes_sound 99 3) in E as (vb & -> & Hv). exists (VLen b), vb. naive_solver. }
  intros H. apply skip_msg_sound in H as (-> & v & vb & -> & Hv). exists v, vb. apply N.eqb_neq in E1, E2, E3. naive_solver.
Qed.
Lemma field_cons t t' v fs o : field t ((t', v) :: fs) o <->
  if N.eqb t' t then exists b o', v = VLen b /\ field t fs o' /\ o = Some (default b o') else field t fs o.
Proof.
  unfold field. rewrite values_cons. destruct (N.eqb t' t); [|done]. split.
  - intros ([|b l] & Hl & ->); [done|]. injection Hl as -> Hl. exists b, (last l). split_and!; [done|eauto|]. rewrite last_cons. by destruct (last l).
  - intros (b & o' & -> & (l & Hl & ->) & ->). exists (b :: l). split; [simpl; by f_equal|]. rewrite last_cons. by destruct (last l).
Qed.
Lemma steps_node fs : forall m n, steps upd_node m fs n <-> exists i k v, field 1 fs i /\ field 2 fs k /\ field 3 fs v /\
  n = NodeSchema (default (ns_index m) i) (default (ns_key m) k) (match v with Some x => Some x | None => ns_value m end).
Proof.
  induction fs as [|[t x] fs IH]; intros m n; split.
  - inversion 1; subst. exists None, None, None. split_and!; [by exists []..|by destruct n].
  - intros (i & k & v & ([|] & Hi & ->) & ([|] & Hk & ->) & ([|] & Hv & ->) & ->); try done. simpl. destruct m. constructor.
  - inversion 1 as [|? ? ? m1 ? ? Hu Hs]; subst. apply IH in Hs as (i & k & v & Hi & Hk & Hv & ->).
    destruct Hu as [(-> & b & -> & ->)|[(-> & b & -> & ->)|[(-> & b & -> & ->)|(H1 & H2 & H3 & ->)]]]; simpl.
    + exists (Some (default b i)), k, v. rewrite !field_cons. simpl. split_and!; [eauto 6|done..].
    + exists i, (Some (default b k)), v. rewrite !field_cons. simpl. split_and!; [done|eauto 6|done..].
    + exists i, k, (Some (default b v)). rewrite !field_cons. simpl. split_and!; [done|done|eauto 6|]. by destruct v.
    + exists i, k, v. rewrite !field_cons, (proj2 (N.eqb_neq _ _) H1), (proj2 (N.eqb_neq _ _) H2), (proj2 (N.eqb_neq _ _) H3). done.
  - intros (i & k & v & Hi & Hk & Hv & ->). rewrite field_cons in Hi, Hk, Hv. unfold upd_node.
    destruct (N.eqb_spec t 1) as [->|H1]; [|destruct (N.eqb_spec t 2) as [->|H2]; [|destruct (N.eqb_spec t 3) as [->|H3]]]; simpl in *.
    + destruct Hi as (b & o' & -> & Ho & ->). eapply st_cons; [left; eauto|]. apply IH. exists o', k, v. simpl. done.
    + destruct Hk as (b & o' & -> & Ho & ->). eapply st_cons; [right; left; eauto|]. apply IH. exists i, o', v. simpl. done.
    + destruct Hv as (b & o' & -> & Ho & ->). eapply st_cons; [right; right; left; eauto|]. apply IH. exists i, k, o'. simpl. split_and!; [done..|]. by destruct o'.
    + eapply st_cons; [right; right; right; eauto|]. apply IH. eauto 10.
Qed.

(** A block is read if, and only if, it is a message of the schema. *)
Lemma decode_exactly raw nds key value : decode_block raw = DOk (Block nds key value) <-> block_message nds key value raw.
Proof.
  unfold decode_block. split.
  - destruct (dec_node_schema raw) as [ns|] eqn:E; [|done]. destruct (dec_yolo (ns_index ns)) as [ls|] eqn:E1; [|done].
    destruct (mapM level_to_node ls) as [nds'|] eqn:E2; [|done]. intros [= <- <- <-].
    apply (decode_iff _ 100 upd_node) in E as (fs & Hw & Hs); [|apply node_complete|apply node_sound].
    apply steps_node in Hs as (i & k & v & Hi & Hk & Hv & ->). simpl in *. exists fs, i, k. split_and!; [done|done|done|by destruct v|by apply index_iff; eauto|done].
  - intros (fs & i & k & Hw & Hi & Hk & Hv & Hx & ->). apply index_iff in Hx as (ls & Hd & Hm).
    assert (dec_node_schema raw = Some (NodeSchema (default [] i) (default [] k) value)) as ->.
    { apply (decode_iff _ 100 upd_node); [apply node_complete|apply node_sound|]. exists fs. split; [done|]. apply steps_node. exists i, k, value. simpl. split_and!; [done..|by destruct value]. }
    simpl. by rewrite Hd, Hm.
Qed.

(** ** What is written *)
Lemma enc_bytes_wire d t b fs bs : (1 <= t < 2 ^ 20)%N -> u64 (blen b) -> wire (S d) fs bs -> wire (S d) ((t, VLen b) :: fs) (enc_bytes_field t b ++ bs).
Proof.
  intros Ht Hb Hw. unfold enc_bytes_field, enc_key. rewrite <-!app_assoc. rewrite (app_assoc (enc_varint (blen b))).
  apply (wire_cons (S d) t 2); [lia|apply enc_varint64; unfold u64; lia|by constructor; apply enc_varint64|done].
Qed.
Lemma enc_opt_wire d t o fs bs : (1 <= t < 2 ^ 20)%N -> opt_ok o -> wire (S d) fs bs ->
  wire (S d) (match o with Some b => (t, VLen b) :: fs | None => fs end) (enc_opt_bytes t o ++ bs).
Proof. intros Ht Ho Hw. destruct o as [b|]; [by apply enc_bytes_wire|done]. Qed.
Lemma header_written p md : header_ok (Header p md) ->
  header_message p ((fun m => (md_content_feed m, md_user_data m)) <$> md) (enc_header (Header p md)).
Proof.
  intros (Hp & Hm). simpl in Hp, Hm. unfold enc_header. cbn [h_protocol h_metadata] in *. destruct md as [[feed user]|]; cbn [fmap option_fmap option_map md_content_feed md_user_data] in *.
  - destruct Hm as (H1 & H2 & H3). 
    pose proof (enc_bytes_wire 99 2 _ [] [] ltac:(lia) H3 ltac:(constructor)) as Hw. rewrite app_nil_r in Hw.
    exists [(1%N, VLen p); (2%N, VLen (enc_metadata (Metadata feed user)))]. split; [by apply (enc_bytes_wire 99)|]. split; [by exists [p]|].
    pose proof (enc_opt_wire 98 2 user [] [] ltac:(lia) H2 ltac:(constructor)) as Hw2. rewrite app_nil_r in Hw2.
    pose proof (enc_opt_wire 98 1 feed _ _ ltac:(lia) H1 Hw2) as Hw1. eexists _, _. split; [done|]. split; [exact Hw1|].
    destruct feed as [f|], user as [u|]; (split; [first [by exists [f]|by exists []]|first [by exists [u]|by exists []]]).
  - exists [(1%N, VLen p)]. split; [apply (enc_bytes_wire 99); [lia|done|constructor]|]. split; [by exists [p]|done].
Qed.
