(** The wire format of protocol buffers, and the messages of /repo/src/schema.proto in
    it.  Written from the format's documentation, not from the code: nothing here uses
    [Codec.v].  Definitions only. *)
From Coq.Strings Require Import Byte.
From stdpp Require Import prelude.
From Verif Require Import Bytes Model.

(** A number in groups of seven bits, the lowest first; the high bit of a byte says
    that more follow.  The shortest form is not required. *)
Inductive varint : N -> bytes -> Prop :=
| vi_last b : (Byte.to_N b < 128)%N -> varint (Byte.to_N b) [b]
| vi_more b n bs : (128 <= Byte.to_N b)%N -> varint n bs -> varint (Byte.to_N b - 128 + 128 * n)%N (b :: bs).
Definition varint64 (n : N) (bs : bytes) : Prop := varint n bs /\ (n < 2 ^ 64)%N /\ (length bs <= 10)%nat.

(** The value of a field: a number, eight bytes, a string of bytes with its length
    before it, four bytes, or fields between two brackets. *)
Inductive fval := VInt (n : N) | V64 (b : bytes) | VLen (b : bytes) | V32 (b : bytes) | VGroup (fs : list (N * fval)).

(** [wire_val d t w v bs]: [bs] is the value [v] of field [t] in wire type [w];
    [wire d fs bs]: [bs] are the fields [fs].  Brackets are nested less than [d] deep. *)
Inductive wire_val : nat -> N -> N -> fval -> bytes -> Prop :=
| w_int d t n bs : varint64 n bs -> wire_val (S d) t 0 (VInt n) bs
| w_64 d t b : length b = 8 -> wire_val (S d) t 1 (V64 b) b
| w_len d t b bs : varint64 (N.of_nat (length b)) bs -> wire_val (S d) t 2 (VLen b) (bs ++ b)
| w_32 d t b : length b = 4 -> wire_val (S d) t 5 (V32 b) b
| w_group d t fs bs eb : wire d fs bs -> varint64 (t * 8 + 4) eb -> wire_val (S d) t 3 (VGroup fs) (bs ++ eb)
with wire : nat -> list (N * fval) -> bytes -> Prop :=
| wire_nil d : wire d [] []
| wire_cons d t w v fs tb vb bs : (1 <= t < 2 ^ 29)%N -> varint64 (t * 8 + w) tb -> wire_val d t w v vb -> wire d fs bs ->
    wire d ((t, v) :: fs) (tb ++ vb ++ bs).

(** The values of field [t], in order. *)
Definition values (t : N) (fs : list (N * fval)) : list fval := map snd (List.filter (fun f => N.eqb (fst f) t) fs).

(** An optional field of type bytes: the last one counts. *)
Definition field (t : N) (fs : list (N * fval)) (o : option bytes) : Prop := exists l, values t fs = map VLen l /\ o = last l.

(** A repeated field of numbers: one by one or many at once. *)
Inductive varints : list N -> bytes -> Prop :=
| vs_nil : varints [] []
| vs_cons n b ns bs : varint64 n b -> varints ns bs -> varints (n :: ns) (b ++ bs).
Inductive numbers : list fval -> list N -> Prop :=
| num_nil : numbers [] []
| num_one n vs ns : numbers vs ns -> numbers (VInt n :: vs) (n :: ns)
| num_many b ms vs ns : varints ms b -> numbers vs ns -> numbers (VLen b :: vs) (ms ++ ns).

(** message Level (schema.proto:2-5): the keys of a node and its children, each a block
    and a position in it. *)
Definition level_message (nd : node) (b : bytes) : Prop :=
  exists fs, wire 99 fs b /\ numbers (values 1 fs) (map N.of_nat (n_keys nd)) /\
    numbers (values 2 fs) (concat (map (fun r : ref => [N.of_nat (fst r); N.of_nat (snd r)]) (n_children nd))).

(** message YoloIndex (schema.proto:1-8). *)
Definition index_message (nds : list node) (b : bytes) : Prop :=
  exists fs l, wire 100 fs b /\ values 1 fs = map VLen l /\ Forall2 level_message nds l.

(** message Node (schema.proto:20-24).  A missing index or key counts as empty. *)
Definition block_message (nds : list node) (key : bytes) (value : option bytes) (raw : bytes) : Prop :=
  exists fs i k, wire 100 fs raw /\ field 1 fs i /\ field 2 fs k /\ field 3 fs value /\
    index_message nds (default [] i) /\ key = default [] k.

(** message Header (schema.proto:10-18) with at most one metadata. *)
Definition header_message (protocol : bytes) (md : option (option bytes * option bytes)) (raw : bytes) : Prop :=
  exists fs, wire 100 fs raw /\ field 1 fs (Some protocol) /\
    match md with
    | None => values 2 fs = []
    | Some (feed, user) => exists b fs', values 2 fs = [VLen b] /\ wire 99 fs' b /\ field 1 fs' feed /\ field 2 fs' user
    end.

(** The same bytes, or the same message Node in two forms. *)
Definition says_same (a b : bytes) : Prop :=
  a = b \/ exists nds key value, block_message nds key value a /\ block_message nds key value b.
