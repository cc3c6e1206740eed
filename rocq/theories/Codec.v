(** The wire format: /repo/src/schema.proto compiled by prost 0.12 (proto2,
    since the file has no syntax line).  Bytes are [byte], u64 values are [N].
    Encoding functions follow prost's generated [encode_raw], decoding follows
    prost's [Message::decode] / [merge_field]. *)
From Coq.Strings Require Import Byte.
From stdpp Require Import prelude.
From Verif Require Import Bytes.

Definition byte_of (n : N) : byte := default x00 (Byte.of_N n).
Definition blen (b : bytes) : N := N.of_nat (length b).

(** ** Varints (prost::encoding::encode_varint / decode_varint) *)

(** [while value >= 0x80 { push ((value & 0x7F) | 0x80); value >>= 7 }].
    A u64 needs at most 10 rounds, which is the fuel. *)
Fixpoint enc_varint_go (fuel : nat) (n : N) : bytes :=
  match fuel with
  | 0 => []
  | S f =>
      if (n <? 128)%N then [byte_of n]
      else byte_of (n mod 128 + 128)%N :: enc_varint_go f (n / 128)%N
  end.
Definition enc_varint (n : N) : bytes := enc_varint_go 10 n.

(** At most 10 bytes; the tenth byte must be 0 or 1; [left] counts the bytes
    still allowed, [mul] is 2^(7*count). *)
Fixpoint dec_varint_go (left : nat) (mul acc : N) (buf : bytes) : option (N * bytes) :=
  match left with
  | 0 => None
  | S l =>
      match buf with
      | [] => None
      | b :: rest =>
          let v := Byte.to_N b in
          let acc' := (acc + (v mod 128) * mul)%N in
          if (v <? 128)%N then
            if (l =? 0)%nat && (2 <=? v)%N then None else Some (acc', rest)
          else dec_varint_go l (mul * 128)%N acc' rest
      end
  end.
Definition dec_varint (buf : bytes) : option (N * bytes) := dec_varint_go 10 1 0 buf.

(** ** Field keys (encode_key / decode_key) *)
Definition enc_key (tag wt : N) : bytes := enc_varint (tag * 8 + wt)%N.

Definition dec_key (buf : bytes) : option (N * N * bytes) :=
  match dec_varint buf with
  | None => None
  | Some (k, rest) =>
      if (4294967295 <? k)%N then None
      else if (5 <? k mod 8)%N then None
      else if (k / 8 =? 0)%N then None
      else Some (k / 8, k mod 8, rest)%N
  end.

(** [buf.advance(n)] after the underflow check. *)
Definition advance (n : N) (buf : bytes) : option bytes :=
  if (blen buf <? n)%N then None else Some (drop (N.to_nat n) buf).

(** A length-delimited payload. *)
Definition dec_len_bytes (buf : bytes) : option (bytes * bytes) :=
  match dec_varint buf with
  | None => None
  | Some (n, rest) =>
      if (blen rest <? n)%N then None
      else Some (take (N.to_nat n) rest, drop (N.to_nat n) rest)
  end.

(** ** Unknown fields (prost::encoding::skip_field), with prost's recursion
    limit [depth] and fuel bounded by the buffer length. *)
Fixpoint skip_field (fuel depth : nat) (tag wt : N) (buf : bytes) {struct fuel} : option bytes :=
  match fuel with
  | 0 => None
  | S f =>
      match depth with
      | 0 => None
      | S d =>
          if (wt =? 0)%N then snd <$> dec_varint buf
          else if (wt =? 1)%N then advance 8 buf
          else if (wt =? 5)%N then advance 4 buf
          else if (wt =? 2)%N then snd <$> dec_len_bytes buf
          else if (wt =? 3)%N then skip_group f d tag buf
          else None
      end
  end
with skip_group (fuel d : nat) (tag : N) (buf : bytes) {struct fuel} : option bytes :=
  match fuel with
  | 0 => None
  | S f =>
      match dec_key buf with
      | None => None
      | Some (itag, iwt, rest) =>
          if (iwt =? 4)%N then if (itag =? tag)%N then Some rest else None
          else match skip_field f d itag iwt rest with
               | None => None
               | Some rest' => skip_group f d tag rest'
               end
      end
  end.

(** ** The generic merge loop: [while buf.remaining() > limit { decode_key; merge_field }] *)
Fixpoint merge_to {M : Type} (mf : M -> N -> N -> bytes -> option (M * bytes))
    (fuel limit : nat) (m : M) (buf : bytes) : option (M * bytes) :=
  if (length buf <=? limit)%nat then Some (m, buf)
  else match fuel with
       | 0 => None
       | S f =>
           match dec_key buf with
           | None => None
           | Some (tag, wt, rest) =>
               match mf m tag wt rest with
               | None => None
               | Some (m', rest') => merge_to mf f limit m' rest'
               end
           end
       end.

(** [Message::decode]: every field is at least one byte, so the buffer length is
    enough fuel. *)
Definition decode_msg {M : Type} (mf : M -> N -> N -> bytes -> option (M * bytes))
    (m0 : M) (buf : bytes) : option M :=
  fst <$> merge_to mf (length buf) 0 m0 buf.

(** prost [merge_loop]: a nested length-delimited region inside [buf]. *)
Definition merge_region {M : Type} (mf : M -> N -> N -> bytes -> option (M * bytes))
    (m0 : M) (buf : bytes) : option (M * bytes) :=
  match dec_varint buf with
  | None => None
  | Some (n, rest) =>
      if (blen rest <? n)%N then None
      else
        let limit := (length rest - N.to_nat n)%nat in
        match merge_to mf (length rest) limit m0 rest with
        | None => None
        | Some (m, rest') => if (length rest' =? limit)%nat then Some (m, rest') else None
        end
  end.

(** Packed varints inside a region (prost [merge_loop] over [uint64::merge]). *)
Fixpoint packed_to (fuel limit : nat) (acc : list N) (buf : bytes) : option (list N * bytes) :=
  if (length buf <=? limit)%nat then Some (acc, buf)
  else match fuel with
       | 0 => None
       | S f =>
           match dec_varint buf with
           | None => None
           | Some (v, rest) => packed_to f limit (acc ++ [v]) rest
           end
       end.

(** [uint64::merge_repeated]: packed or single values. *)
Definition merge_u64s (acc : list N) (wt : N) (buf : bytes) : option (list N * bytes) :=
  if (wt =? 2)%N then
    match dec_varint buf with
    | None => None
    | Some (n, rest) =>
        if (blen rest <? n)%N then None
        else
          let limit := (length rest - N.to_nat n)%nat in
          match packed_to (length rest) limit acc rest with
          | None => None
          | Some (acc', rest') =>
              if (length rest' =? limit)%nat then Some (acc', rest') else None
          end
    end
  else if (wt =? 0)%N then
    match dec_varint buf with
    | None => None
    | Some (v, rest) => Some (acc ++ [v], rest)
    end
  else None.

(** A [bytes] field: replaces the previous value. *)
Definition merge_bytes (wt : N) (buf : bytes) : option (bytes * bytes) :=
  if (wt =? 2)%N then dec_len_bytes buf else None.

Definition enc_bytes_field (tag : N) (b : bytes) : bytes :=
  enc_key tag 2 ++ enc_varint (blen b) ++ b.

Definition enc_packed (tag : N) (l : list N) : bytes :=
  match l with
  | [] => []
  | _ => let body := concat (map enc_varint l) in
         enc_key tag 2 ++ enc_varint (blen body) ++ body
  end.

(** ** message YoloIndex (schema.proto:1-8) *)
Record level := Level { lv_keys : list N; lv_children : list N }.

Definition enc_level (l : level) : bytes :=
  enc_packed 1 (lv_keys l) ++ enc_packed 2 (lv_children l).

Definition enc_yolo (ls : list level) : bytes :=
  concat (map (fun l => enc_bytes_field 1 (enc_level l)) ls).

Definition skip_msg {M : Type} (depth : nat) (m : M) (tag wt : N) (buf : bytes) : option (M * bytes) :=
  (fun rest => (m, rest)) <$> skip_field (S (length buf)) depth tag wt buf.

Definition merge_level (m : level) (tag wt : N) (buf : bytes) : option (level * bytes) :=
  if (tag =? 1)%N then
    match merge_u64s (lv_keys m) wt buf with
    | None => None
    | Some (ks, rest) => Some (Level ks (lv_children m), rest)
    end
  else if (tag =? 2)%N then
    match merge_u64s (lv_children m) wt buf with
    | None => None
    | Some (cs, rest) => Some (Level (lv_keys m) cs, rest)
    end
  else skip_msg 99 m tag wt buf.

Definition merge_yolo (m : list level) (tag wt : N) (buf : bytes) : option (list level * bytes) :=
  if (tag =? 1)%N then
    if (wt =? 2)%N then
      match merge_region merge_level (Level [] []) buf with
      | None => None
      | Some (l, rest) => Some (m ++ [l], rest)
      end
    else None
  else skip_msg 100 m tag wt buf.

Definition dec_yolo (buf : bytes) : option (list level) := decode_msg merge_yolo [] buf.

(** ** message Node (schema.proto:20-24) *)
Record node_schema := NodeSchema { ns_index : bytes; ns_key : bytes; ns_value : option bytes }.

Definition enc_node_schema (n : node_schema) : bytes :=
  enc_bytes_field 1 (ns_index n) ++ enc_bytes_field 2 (ns_key n) ++
  match ns_value n with None => [] | Some v => enc_bytes_field 3 v end.

(** prost does not insist on required fields: a missing one stays empty. *)
Definition merge_node_schema (m : node_schema) (tag wt : N) (buf : bytes) : option (node_schema * bytes) :=
  if (tag =? 1)%N then
    (fun '(b, rest) => (NodeSchema b (ns_key m) (ns_value m), rest)) <$> merge_bytes wt buf
  else if (tag =? 2)%N then
    (fun '(b, rest) => (NodeSchema (ns_index m) b (ns_value m), rest)) <$> merge_bytes wt buf
  else if (tag =? 3)%N then
    (fun '(b, rest) => (NodeSchema (ns_index m) (ns_key m) (Some b), rest)) <$> merge_bytes wt buf
  else skip_msg 100 m tag wt buf.

Definition dec_node_schema (buf : bytes) : option node_schema :=
  decode_msg merge_node_schema (NodeSchema [] [] None) buf.

(** ** message Header (schema.proto:10-18).  This library only encodes it
    (src/tree.rs:126-134); the decoder is the standard one, used in statements. *)
Record metadata := Metadata { md_content_feed : option bytes; md_user_data : option bytes }.
Record header := Header { h_protocol : bytes; h_metadata : option metadata }.

Definition enc_opt_bytes (tag : N) (o : option bytes) : bytes :=
  match o with None => [] | Some b => enc_bytes_field tag b end.

Definition enc_metadata (m : metadata) : bytes :=
  enc_opt_bytes 1 (md_content_feed m) ++ enc_opt_bytes 2 (md_user_data m).

Definition enc_header (h : header) : bytes :=
  enc_bytes_field 1 (h_protocol h) ++
  match h_metadata h with None => [] | Some m => enc_bytes_field 2 (enc_metadata m) end.

Definition merge_metadata (m : metadata) (tag wt : N) (buf : bytes) : option (metadata * bytes) :=
  if (tag =? 1)%N then
    (fun '(b, rest) => (Metadata (Some b) (md_user_data m), rest)) <$> merge_bytes wt buf
  else if (tag =? 2)%N then
    (fun '(b, rest) => (Metadata (md_content_feed m) (Some b), rest)) <$> merge_bytes wt buf
  else skip_msg 99 m tag wt buf.

(** An optional sub-message is merged into the previous value.  Simplified: the
    UTF-8 check on [protocol] is omitted (nothing in the library decodes headers). *)
Definition merge_header (m : header) (tag wt : N) (buf : bytes) : option (header * bytes) :=
  if (tag =? 1)%N then
    (fun '(b, rest) => (Header b (h_metadata m), rest)) <$> merge_bytes wt buf
  else if (tag =? 2)%N then
    if (wt =? 2)%N then
      (fun '(x, rest) => (Header (h_protocol m) (Some x), rest)) <$>
        merge_region merge_metadata (default (Metadata None None) (h_metadata m)) buf
    else None
  else skip_msg 100 m tag wt buf.

Definition dec_header (buf : bytes) : option header :=
  decode_msg merge_header (Header [] None) buf.
