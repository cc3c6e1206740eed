(** Byte strings, their lexicographic order, and the search keys of
    /repo/src/keys.rs and /repo/src/traverse.rs. *)
From Coq.Strings Require Import Byte.
From stdpp Require Import prelude.

Notation bytes := (list byte).

Global Instance byte_eq_dec : EqDecision byte := Byte.byte_eq_dec.

(** Lexicographic comparison of [u8] slices: Rust's [Ord for [u8]], used by
    [==] and [<] in src/lib.rs:332 and :342 and by src/traverse.rs:52, :65. *)
Fixpoint bytes_cmp (a b : bytes) : comparison :=
  match a, b with
  | [], [] => Eq
  | [], _ :: _ => Lt
  | _ :: _, [] => Gt
  | x :: a', y :: b' =>
      match N.compare (Byte.to_N x) (Byte.to_N y) with
      | Eq => bytes_cmp a' b'
      | c => c
      end
  end.

Definition bytes_eqb (a b : bytes) : bool :=
  match bytes_cmp a b with Eq => true | _ => false end.
Definition bytes_ltb (a b : bytes) : bool :=
  match bytes_cmp a b with Lt => true | _ => false end.

(** The things a node can be searched for.  [Finite] is a plain key
    ([T = [u8]] in src/lib.rs:307) or [LimitValue::Finite]
    (src/traverse.rs:25-28); [PosInf]/[NegInf] are [InfiniteKeys]
    (src/keys.rs:3-7) and [LimitValue::Infinite]. *)
Inductive limit :=
| Finite (k : bytes)
| PosInf
| NegInf.

(** [PartialOrd<[u8]>]: src/keys.rs:22-29, src/traverse.rs:47-57. *)
Definition limit_cmp (l : limit) (k : bytes) : comparison :=
  match l with
  | Finite a => bytes_cmp a k
  | PosInf => Gt
  | NegInf => Lt
  end.

(** [PartialEq<[u8]>]: src/keys.rs:10-14, src/traverse.rs:38-45. *)
Definition limit_eq (l : limit) (k : bytes) : bool :=
  match l with
  | Finite a => bytes_eqb a k
  | PosInf => false
  | NegInf => false
  end.

(** [key < other]: the provided method of [PartialOrd] (partial_cmp is Less). *)
Definition limit_lt (l : limit) (k : bytes) : bool :=
  match limit_cmp l k with Lt => true | _ => false end.
