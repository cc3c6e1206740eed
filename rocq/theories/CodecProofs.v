(** Round trips of the wire format. *)
From Coq.Strings Require Import Byte.
From Coq Require Import Lia.
From stdpp Require Import prelude.
From Verif Require Import Bytes Codec.

Local Arguments enc_bytes_field : simpl never.
Local Arguments enc_varint : simpl never.
Local Arguments dec_varint : simpl never.
Local Arguments enc_key : simpl never.
Local Arguments enc_packed : simpl never.

Definition u64 (n : N) : Prop := (n < 2 ^ 64)%N.

Lemma to_N_byte_of n : (n < 256)%N -> Byte.to_N (byte_of n) = n.
Proof.
  intros Hn. unfold byte_of. destruct (Byte.of_N n) as [b|] eqn:E.
  - simpl. by apply Byte.to_of_N.
  - apply Byte.of_N_None_iff in E. lia.
Qed.

Lemma dec_enc_varint_go f : forall n mul acc rest,
  (n < 2 * 128 ^ N.of_nat f)%N ->
  dec_varint_go (S f) mul acc (enc_varint_go (S f) n ++ rest) = Some (acc + n * mul, rest)%N.
Proof.
  induction f as [|f IH]; intros n mul acc rest Hn.
  - change (128 ^ N.of_nat 0)%N with 1%N in Hn.
    simpl. destruct (N.ltb_spec n 128) as [Hl|]; [|lia].
    simpl. rewrite to_N_byte_of by lia.
    destruct (N.ltb_spec n 128) as [_|]; [|lia].
    destruct (N.leb_spec 2 n); [lia|]. simpl.
    rewrite N.mod_small by lia. done.
  - cbn [enc_varint_go]. destruct (N.ltb_spec n 128) as [Hl|Hge].
    + cbn [app dec_varint_go]. rewrite to_N_byte_of by lia.
      destruct (N.ltb_spec n 128) as [_|]; [|lia].
      rewrite N.mod_small by lia. done.
    + cbn [app]. cbn [dec_varint_go].
      pose proof (N.mod_lt n 128 ltac:(lia)) as Hm.
      rewrite to_N_byte_of by lia.
      destruct (N.ltb_spec (n mod 128 + 128) 128) as [Hbad|_]; [exfalso; revert Hbad; generalize (n mod 128)%N; lia|].
      assert ((n mod 128 + 128) mod 128 = n mod 128)%N as ->.
      { rewrite <-(N.mul_1_l 128) at 2. rewrite N.mod_add by lia. apply N.mod_mod. lia. }
      fold (dec_varint_go (S f)). fold (enc_varint_go (S f) (n / 128)).
      change (dec_varint_go (S f) (mul * 128) (acc + n mod 128 * mul)
                (enc_varint_go (S f) (n / 128) ++ rest) = Some ((acc + n * mul)%N, rest)).
      rewrite IH.
      * f_equal. f_equal. pose proof (N.div_mod' n 128). nia.
      * apply N.div_lt_upper_bound; [lia|].
        rewrite Nat2N.inj_succ, N.pow_succ_r' in Hn. lia.
Qed.

Lemma dec_enc_varint n rest : u64 n -> dec_varint (enc_varint n ++ rest) = Some (n, rest).
Proof.
  intros Hn. unfold dec_varint, enc_varint. rewrite dec_enc_varint_go.
  - f_equal. f_equal. lia.
  - unfold u64 in Hn. change (2 ^ 64)%N with (2 * 128 ^ N.of_nat 9)%N in Hn. done.
Qed.

Lemma enc_varint_length n : (1 <= length (enc_varint n) <= 10)%nat.
Proof.
  unfold enc_varint. split.
  - simpl. destruct (n <? 128)%N; simpl; lia.
  - generalize 10. intros f. revert n. induction f as [|f IH]; intros n; simpl; [lia|].
    destruct (n <? 128)%N; simpl; [lia|]. specialize (IH (n / 128)%N). lia.
Qed.

Lemma dec_enc_key tag wt rest :
  (0 < tag < 2 ^ 20)%N -> (wt <= 5)%N ->
  dec_key (enc_key tag wt ++ rest) = Some (tag, wt, rest).
Proof.
  intros Ht Hw. unfold dec_key, enc_key. rewrite dec_enc_varint by (unfold u64; lia).
  assert ((tag * 8 + wt) / 8 = tag)%N as Hd.
  { rewrite N.div_add_l by lia. rewrite N.div_small by lia. lia. }
  assert ((tag * 8 + wt) mod 8 = wt)%N as Hm.
  { rewrite N.add_comm, N.mod_add by lia. apply N.mod_small. lia. }
  destruct (N.ltb_spec 4294967295 (tag * 8 + wt)); [lia|].
  rewrite Hm, Hd.
  destruct (N.ltb_spec 5 wt); [lia|].
  destruct (N.eqb_spec tag 0); [lia|]. done.
Qed.

Lemma dec_enc_len_bytes b rest :
  u64 (blen b) -> dec_len_bytes (enc_varint (blen b) ++ b ++ rest) = Some (b, rest).
Proof.
  intros Hb. unfold dec_len_bytes. rewrite dec_enc_varint by done.
  unfold blen in *. rewrite app_length.
  destruct (N.ltb_spec (N.of_nat (length b + length rest)) (N.of_nat (length b))); [lia|].
  rewrite Nat2N.id, take_app, drop_app. done.
Qed.

(** One field of a message. *)
Lemma merge_to_field {M} (mf : M -> N -> N -> bytes -> option (M * bytes)) fuel limit m tag wt body rest m' :
  (0 < tag < 2 ^ 20)%N -> (wt <= 5)%N ->
  mf m tag wt (body ++ rest) = Some (m', rest) ->
  (limit <= length rest)%nat ->
  (length (enc_key tag wt ++ body ++ rest) <= fuel)%nat ->
  exists fuel', (length rest <= fuel')%nat /\
    merge_to mf fuel limit m (enc_key tag wt ++ body ++ rest) = merge_to mf fuel' limit m' rest.
Proof.
  intros Ht Hw Hmf Hl Hf.
  pose proof (enc_varint_length (tag * 8 + wt)) as Hk. fold (enc_key tag wt) in Hk.
  rewrite !app_length in Hf.
  destruct fuel as [|f]; [lia|]. exists f. split; [lia|].
  cbn [merge_to].
  destruct (Nat.leb_spec (length (enc_key tag wt ++ body ++ rest)) limit) as [Hle|_].
  { rewrite !app_length in Hle. lia. }
  rewrite dec_enc_key by done. by rewrite Hmf.
Qed.

Lemma merge_to_bytes_field {M} (mf : M -> N -> N -> bytes -> option (M * bytes)) fuel limit m tag b rest m' :
  (0 < tag < 2 ^ 20)%N -> u64 (blen b) ->
  mf m tag 2%N ((enc_varint (blen b) ++ b) ++ rest) = Some (m', rest) ->
  (limit <= length rest)%nat ->
  (length (enc_bytes_field tag b ++ rest) <= fuel)%nat ->
  exists fuel', (length rest <= fuel')%nat /\
    merge_to mf fuel limit m (enc_bytes_field tag b ++ rest) = merge_to mf fuel' limit m' rest.
Proof.
  intros Ht Hb Hmf Hl Hf. unfold enc_bytes_field in *.
  rewrite <-!app_assoc in *. rewrite (app_assoc (enc_varint _)) in *.
  apply merge_to_field; done.
Qed.

Lemma merge_to_done {M} (mf : M -> N -> N -> bytes -> option (M * bytes)) fuel limit m buf :
  length buf = limit -> merge_to mf fuel limit m buf = Some (m, buf).
Proof. intros <-. destruct fuel; simpl; rewrite Nat.leb_refl; done. Qed.

Lemma packed_to_enc l : forall fuel limit acc rest,
  Forall u64 l -> length rest = limit ->
  (length (concat (map enc_varint l) ++ rest) <= fuel)%nat ->
  packed_to fuel limit acc (concat (map enc_varint l) ++ rest) = Some (acc ++ l, rest).
Proof.
  induction l as [|v l IH]; intros fuel limit acc rest Hu Hlim Hf.
  - simpl. rewrite app_nil_r. destruct fuel; simpl; rewrite Hlim, Nat.leb_refl; done.
  - inversion Hu as [|?? Hv Hl]; subst. simpl in *.
    rewrite <-!app_assoc in *.
    pose proof (enc_varint_length v). rewrite app_length in Hf.
    destruct fuel as [|f]; [lia|]. cbn [packed_to].
    destruct (Nat.leb_spec (length (enc_varint v ++ concat (map enc_varint l) ++ rest)) (length rest)) as [Hle|_].
    { rewrite !app_length in Hle. lia. }
    rewrite dec_enc_varint by done.
    rewrite IH; [|done..|lia]. by rewrite <-app_assoc.
Qed.

Lemma merge_u64s_enc l acc rest :
  Forall u64 l -> u64 (blen (concat (map enc_varint l))) ->
  merge_u64s acc 2 (enc_varint (blen (concat (map enc_varint l))) ++ concat (map enc_varint l) ++ rest)
  = Some (acc ++ l, rest).
Proof.
  intros Hl Hb. unfold merge_u64s. simpl.
  rewrite dec_enc_varint by done. set (body := concat (map enc_varint l)) in *.
  unfold blen in *. rewrite app_length.
  destruct (N.ltb_spec (N.of_nat (length body + length rest)) (N.of_nat (length body))); [lia|].
  rewrite Nat2N.id.
  replace (length body + length rest - length body)%nat with (length rest) by lia.
  unfold body. rewrite packed_to_enc; [|done..|].
  - by rewrite Nat.eqb_refl.
  - rewrite app_length. lia.
Qed.

(** ** Level *)
Definition packed_len (l : list N) : N := blen (concat (map enc_varint l)).
Definition level_ok (l : level) : Prop :=
  Forall u64 (lv_keys l) /\ Forall u64 (lv_children l) /\
  u64 (packed_len (lv_keys l)) /\ u64 (packed_len (lv_children l)) /\ u64 (blen (enc_level l)).

Lemma merge_level_1 m buf : merge_level m 1 2 buf =
  match merge_u64s (lv_keys m) 2 buf with
  | None => None | Some (ks, rest) => Some (Level ks (lv_children m), rest) end.
Proof. done. Qed.
Lemma merge_level_2 m buf : merge_level m 2 2 buf =
  match merge_u64s (lv_children m) 2 buf with
  | None => None | Some (cs, rest) => Some (Level (lv_keys m) cs, rest) end.
Proof. done. Qed.

Lemma merge_level_enc fuel l rest :
  level_ok l ->
  (length (enc_level l ++ rest) <= fuel)%nat ->
  merge_to merge_level fuel (length rest) (Level [] []) (enc_level l ++ rest) = Some (l, rest).
Proof.
  intros (Hk & Hc & Hkl & Hcl & _) Hf. destruct l as [ks cs]. simpl in *.
  unfold enc_level in *. simpl in *.
  assert (forall fuel ks0, (length (enc_packed 2 cs ++ rest) <= fuel)%nat ->
    merge_to merge_level fuel (length rest) (Level ks0 []) (enc_packed 2 cs ++ rest)
    = Some (Level ks0 cs, rest)) as Hcs.
  { intros fu ks0 Hfu. destruct cs as [|c cs]; [by apply merge_to_done|].
    unfold enc_packed in *. cbv zeta in *. set (l := c :: cs) in *.
    rewrite <-!app_assoc in *.
    rewrite (app_assoc (enc_varint _)) in *.
    destruct (merge_to_field merge_level fu (length rest) (Level ks0 []) 2 2
      (enc_varint (blen (concat (map enc_varint l))) ++ concat (map enc_varint l)) rest
      (Level ks0 l)) as (fu' & _ & ->); try done.
    - rewrite merge_level_2, <-app_assoc, merge_u64s_enc; done.
    - by apply merge_to_done. }
  destruct ks as [|k ks]; [by apply Hcs|].
  unfold enc_packed at 1. unfold enc_packed at 1 in Hf. cbv zeta in *. set (l := k :: ks) in *.
  rewrite <-!app_assoc in *.
  rewrite (app_assoc (enc_varint _)) in *.
  destruct (merge_to_field merge_level fuel (length rest) (Level [] []) 1 2
      (enc_varint (blen (concat (map enc_varint l))) ++ concat (map enc_varint l))
      (enc_packed 2 cs ++ rest) (Level l [])) as (fu' & Hfu' & ->); try done.
  - rewrite merge_level_1, <-app_assoc, merge_u64s_enc; done.
  - rewrite app_length. lia.
  - by apply Hcs.
Qed.

(** ** YoloIndex *)
Lemma merge_region_enc {M} (mf : M -> N -> N -> bytes -> option (M * bytes)) m0 body rest m :
  u64 (blen body) ->
  (forall fuel, (length (body ++ rest) <= fuel)%nat ->
     merge_to mf fuel (length rest) m0 (body ++ rest) = Some (m, rest)) ->
  merge_region mf m0 (enc_varint (blen body) ++ body ++ rest) = Some (m, rest).
Proof.
  intros Hb Hm. unfold merge_region. rewrite dec_enc_varint by done.
  unfold blen in *. rewrite app_length.
  destruct (N.ltb_spec (N.of_nat (length body + length rest)) (N.of_nat (length body))); [lia|].
  rewrite Nat2N.id.
  replace (length body + length rest - length body)%nat with (length rest) by lia.
  rewrite Hm by (rewrite app_length; lia). by rewrite Nat.eqb_refl.
Qed.

Lemma merge_yolo_1 m buf : merge_yolo m 1 2 buf =
  match merge_region merge_level (Level [] []) buf with
  | None => None | Some (l, rest) => Some (m ++ [l], rest) end.
Proof. done. Qed.

Lemma merge_yolo_enc ls : forall fuel acc,
  Forall level_ok ls ->
  (length (enc_yolo ls) <= fuel)%nat ->
  merge_to merge_yolo fuel 0 acc (enc_yolo ls) = Some (acc ++ ls, []).
Proof.
  induction ls as [|l ls IH]; intros fuel acc Hok Hf.
  - unfold enc_yolo. simpl. rewrite app_nil_r. by apply merge_to_done.
  - inversion Hok as [|?? Hl Hls]; subst.
    change (enc_yolo (l :: ls)) with (enc_bytes_field 1 (enc_level l) ++ enc_yolo ls) in *.
    destruct (merge_to_bytes_field merge_yolo fuel 0 acc 1 (enc_level l) (enc_yolo ls) (acc ++ [l]))
      as (fu' & Hfu' & ->); [done|apply Hl| |lia|done|].
    + rewrite merge_yolo_1.
      rewrite <-app_assoc.
      rewrite (merge_region_enc merge_level (Level [] []) (enc_level l) _ l); [done|apply Hl|].
      intros f' Hf'. by apply merge_level_enc.
    + rewrite IH by done. by rewrite <-app_assoc.
Qed.

Lemma dec_enc_yolo ls : Forall level_ok ls -> dec_yolo (enc_yolo ls) = Some ls.
Proof. intros Hok. unfold dec_yolo, decode_msg. by rewrite merge_yolo_enc. Qed.

(** ** Node *)
Definition schema_ok (n : node_schema) : Prop :=
  u64 (blen (ns_index n)) /\ u64 (blen (ns_key n)) /\
  match ns_value n with None => True | Some v => u64 (blen v) end.

Lemma merge_bytes_enc b rest :
  u64 (blen b) -> merge_bytes 2 ((enc_varint (blen b) ++ b) ++ rest) = Some (b, rest).
Proof. intros Hb. unfold merge_bytes. simpl. rewrite <-app_assoc. by apply dec_enc_len_bytes. Qed.

Lemma merge_node_schema_enc n fuel :
  schema_ok n -> (length (enc_node_schema n) <= fuel)%nat ->
  merge_to merge_node_schema fuel 0 (NodeSchema [] [] None) (enc_node_schema n) = Some (n, []).
Proof.
  intros (Hi & Hk & Hv) Hf. unfold enc_node_schema in *.
  destruct n as [ix k v]. cbn [ns_index ns_key ns_value] in *.
  edestruct (merge_to_bytes_field merge_node_schema) as (f1 & Hf1 & ->); [..|exact Hf|]; [done|done| |lia|].
  { unfold merge_node_schema. rewrite merge_bytes_enc by done. done. }
  edestruct (merge_to_bytes_field merge_node_schema) as (f2 & Hf2 & ->); [..|exact Hf1|]; [done|done| |lia|].
  { unfold merge_node_schema. rewrite merge_bytes_enc by done. done. }
  destruct v as [v|].
  - rewrite <-(app_nil_r (enc_bytes_field 3 v)) in Hf2 |- *.
    edestruct (merge_to_bytes_field merge_node_schema) as (f3 & Hf3 & ->); [..|exact Hf2|]; [done|done| |simpl; lia|].
    { unfold merge_node_schema. rewrite merge_bytes_enc by done. done. }
    rewrite merge_to_done; done.
  - rewrite merge_to_done; done.
Qed.

Lemma dec_enc_node_schema n : schema_ok n -> dec_node_schema (enc_node_schema n) = Some n.
Proof.
  intros Hok. unfold dec_node_schema, decode_msg. by rewrite merge_node_schema_enc.
Qed.

(** ** Header *)
Definition opt_ok (o : option bytes) : Prop := match o with None => True | Some b => u64 (blen b) end.
Definition header_ok (h : header) : Prop :=
  u64 (blen (h_protocol h)) /\
  match h_metadata h with
  | None => True
  | Some m => opt_ok (md_content_feed m) /\ opt_ok (md_user_data m) /\ u64 (blen (enc_metadata m))
  end.

Lemma merge_metadata_enc m rest fuel :
  opt_ok (md_content_feed m) -> opt_ok (md_user_data m) ->
  (length (enc_metadata m ++ rest) <= fuel)%nat ->
  merge_to merge_metadata fuel (length rest) (Metadata None None) (enc_metadata m ++ rest) = Some (m, rest).
Proof.
  intros Hc Hu Hf. destruct m as [c u]. unfold enc_metadata in *. cbn [md_content_feed md_user_data] in *.
  rewrite <-app_assoc in *.
  assert (forall fuel c0, (length (enc_opt_bytes 2 u ++ rest) <= fuel)%nat ->
    merge_to merge_metadata fuel (length rest) (Metadata c0 None) (enc_opt_bytes 2 u ++ rest)
    = Some (Metadata c0 u, rest)) as H2.
  { intros fu c0 Hfu. destruct u as [u|]; cbn [enc_opt_bytes opt_ok] in *; [|by apply merge_to_done].
    edestruct (merge_to_bytes_field merge_metadata) as (f3 & Hf3 & ->); [..|exact Hfu|]; [done|done| |lia|].
    { unfold merge_metadata. rewrite merge_bytes_enc by done. done. }
    by apply merge_to_done. }
  destruct c as [c|]; cbn [enc_opt_bytes opt_ok] in *; [|by apply H2].
  edestruct (merge_to_bytes_field merge_metadata) as (f3 & Hf3 & ->); [..|exact Hf|]; [done|done| | |].
  { unfold merge_metadata. rewrite merge_bytes_enc by done. done. }
  { rewrite app_length. lia. }
  by apply H2.
Qed.

Lemma merge_header_2 m buf : merge_header m 2 2 buf =
  (fun '(x, rest) => (Header (h_protocol m) (Some x), rest)) <$>
    merge_region merge_metadata (default (Metadata None None) (h_metadata m)) buf.
Proof. done. Qed.

Lemma merge_header_enc h fuel :
  header_ok h -> (length (enc_header h) <= fuel)%nat ->
  merge_to merge_header fuel 0 (Header [] None) (enc_header h) = Some (h, []).
Proof.
  intros (Hp & Hm) Hf. unfold enc_header in *.
  destruct h as [p md]. cbn [h_protocol h_metadata] in *.
  edestruct (merge_to_bytes_field merge_header) as (f1 & Hf1 & ->); [..|exact Hf|]; [done|done| |lia|].
  { unfold merge_header. rewrite merge_bytes_enc by done. done. }
  destruct md as [m|].
  - destruct Hm as (Hc & Hu & Hl).
    rewrite <-(app_nil_r (enc_bytes_field 2 _)) in Hf1 |- *.
    edestruct (merge_to_bytes_field merge_header) as (f3 & Hf3 & ->); [..|exact Hf1|]; [done|done| |simpl; lia|].
    { rewrite merge_header_2. rewrite <-app_assoc.
      rewrite (merge_region_enc merge_metadata _ (enc_metadata m) [] m); [done|done|].
      intros f' Hf'. by apply merge_metadata_enc. }
    by rewrite merge_to_done.
  - by rewrite merge_to_done.
Qed.

Lemma dec_enc_header h : header_ok h -> dec_header (enc_header h) = Some h.
Proof. intros Hok. unfold dec_header, decode_msg. by rewrite merge_header_enc. Qed.
