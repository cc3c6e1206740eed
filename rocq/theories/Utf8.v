(** The validator accepts exactly UTF-8. *)
From Coq.Strings Require Import Byte.
From Coq Require Import Lia ZArith.
From stdpp Require Import prelude.
From Verif Require Import Bytes Codec Model Spec.

Lemma byte_of_to_N b : byte_of (Byte.to_N b) = b.
Proof. unfold byte_of. by rewrite Byte.of_to_N. Qed.
Lemma to_N_byte_of n : (n < 256)%N -> Byte.to_N (byte_of n) = n.
Proof.
  intros H. unfold byte_of. destruct (Byte.of_N n) as [b|] eqn:E; simpl.
  - by apply Byte.to_of_N.
  - apply Byte.of_N_None_iff in E. lia.
Qed.
Lemma to_N_lt b : (Byte.to_N b < 256)%N.
Proof. pose proof (Byte.to_N_bounded b). lia. Qed.

Lemma byte_in_true lo hi b : byte_in lo hi b = true <-> (lo <= Byte.to_N b <= hi)%N.
Proof. unfold byte_in. rewrite andb_true_iff, !N.leb_le. lia. Qed.
Lemma byte_in_false lo hi b : byte_in lo hi b = false <-> ~ (lo <= Byte.to_N b <= hi)%N.
Proof. rewrite <- byte_in_true. destruct (byte_in lo hi b); split; congruence. Qed.

Ltac splits := repeat match goal with
  | |- context [byte_in ?lo ?hi ?b] =>
      let E := fresh "E" in destruct (byte_in lo hi b) eqn:E; [apply byte_in_true in E|apply byte_in_false in E]; simpl
  end.
Ltac arith := Z.to_euclidean_division_equations; lia.
Ltac narith := zify; arith.

Lemma utf8_char_app c l : scalar c -> utf8 (utf8_char c ++ l) = utf8 l.
Proof.
  intros Hc. unfold scalar in Hc. unfold utf8_char.
  destruct (N.ltb_spec c 128); [|destruct (N.ltb_spec c 2048); [|destruct (N.ltb_spec c 65536)]]; cbn [app].
  - cbn [utf8]. replace (byte_in 0 127 (byte_of c)) with true; [done|]. symmetry. apply byte_in_true. rewrite to_N_byte_of; lia.
  - assert (Ha : Byte.to_N (byte_of (192 + c / 64)) = (192 + c / 64)%N) by (apply to_N_byte_of; narith).
    assert (Hb : Byte.to_N (byte_of (128 + c mod 64)) = (128 + c mod 64)%N) by (apply to_N_byte_of; narith).
    revert Ha Hb. generalize (byte_of (192 + c / 64)) (byte_of (128 + c mod 64)). intros a b Ha Hb.
    cbn [utf8].
    replace (byte_in 0 127 a) with false by (symmetry; apply byte_in_false; rewrite Ha; narith).
    replace (byte_in 194 223 a) with true by (symmetry; apply byte_in_true; rewrite Ha; narith).
    by replace (byte_in 128 191 b) with true by (symmetry; apply byte_in_true; rewrite Hb; narith).
  - assert (Ha : Byte.to_N (byte_of (224 + c / 4096)) = (224 + c / 4096)%N) by (apply to_N_byte_of; narith).
    assert (Hb : Byte.to_N (byte_of (128 + c / 64 mod 64)) = (128 + c / 64 mod 64)%N) by (apply to_N_byte_of; narith).
    assert (Hd : Byte.to_N (byte_of (128 + c mod 64)) = (128 + c mod 64)%N) by (apply to_N_byte_of; narith).
    revert Ha Hb Hd. generalize (byte_of (224 + c / 4096)) (byte_of (128 + c / 64 mod 64)) (byte_of (128 + c mod 64)).
    intros a b d Ha Hb Hd. cbn [utf8].
    replace (byte_in 0 127 a) with false by (symmetry; apply byte_in_false; rewrite Ha; narith).
    replace (byte_in 194 223 a) with false by (symmetry; apply byte_in_false; rewrite Ha; narith).
    replace (byte_in 128 191 d) with true by (symmetry; apply byte_in_true; rewrite Hd; narith).
    cbn [andb].
    match goal with |- (if ?x then _ else _) = _ => assert (Hx : x = true) end; [|by rewrite Hx].
    rewrite !orb_true_iff, !andb_true_iff, !byte_in_true, Ha, Hb. narith.
  - assert (Ha : Byte.to_N (byte_of (240 + c / 262144)) = (240 + c / 262144)%N) by (apply to_N_byte_of; narith).
    assert (Hb : Byte.to_N (byte_of (128 + c / 4096 mod 64)) = (128 + c / 4096 mod 64)%N) by (apply to_N_byte_of; narith).
    assert (Hd : Byte.to_N (byte_of (128 + c / 64 mod 64)) = (128 + c / 64 mod 64)%N) by (apply to_N_byte_of; narith).
    assert (He : Byte.to_N (byte_of (128 + c mod 64)) = (128 + c mod 64)%N) by (apply to_N_byte_of; narith).
    revert Ha Hb Hd He. generalize (byte_of (240 + c / 262144)) (byte_of (128 + c / 4096 mod 64)) (byte_of (128 + c / 64 mod 64)) (byte_of (128 + c mod 64)).
    intros a b d e Ha Hb Hd He. cbn [utf8].
    replace (byte_in 0 127 a) with false by (symmetry; apply byte_in_false; rewrite Ha; narith).
    replace (byte_in 194 223 a) with false by (symmetry; apply byte_in_false; rewrite Ha; narith).
    replace (byte_in 224 224 a) with false by (symmetry; apply byte_in_false; rewrite Ha; narith).
    replace (byte_in 225 236 a) with false by (symmetry; apply byte_in_false; rewrite Ha; narith).
    replace (byte_in 237 237 a) with false by (symmetry; apply byte_in_false; rewrite Ha; narith).
    replace (byte_in 238 239 a) with false by (symmetry; apply byte_in_false; rewrite Ha; narith).
    replace (byte_in 128 191 d) with true by (symmetry; apply byte_in_true; rewrite Hd; narith).
    replace (byte_in 128 191 e) with true by (symmetry; apply byte_in_true; rewrite He; narith).
    cbn [andb orb].
    match goal with |- (if ?x then _ else _) = _ => assert (Hx : x = true) end; [|by rewrite Hx].
    rewrite !orb_true_iff, !andb_true_iff, !byte_in_true, Ha, Hb. narith.
Qed.

Lemma byte_eq a n : Byte.to_N a = n -> a = byte_of n.
Proof. intros <-. by rewrite byte_of_to_N. Qed.

Lemma utf8_sound n : forall b, (length b <= n)%nat -> utf8 b = true -> is_utf8 b.
Proof.
  induction n as [|n IH]; intros b Hn H.
  { destruct b; [|simpl in Hn; lia]. exists []. by split. }
  assert (Hcons : forall c l l', scalar c -> l = utf8_char c -> (length l' <= n)%nat -> utf8 l' = true -> is_utf8 (l ++ l')).
  { intros c l l' Hc -> Hl Hu. destruct (IH l' Hl Hu) as (cs & Hcs & ->). exists (c :: cs). split; [by constructor|done]. }
  destruct b as [|a l1]; [exists []; by split|]. cbn [utf8] in H. cbn [length] in Hn.
  pose proof (to_N_lt a) as Ba.
  destruct (byte_in 0 127 a) eqn:E1.
  { apply byte_in_true in E1. apply (Hcons (Byte.to_N a) [a] l1); [unfold scalar; lia| |lia|done].
    unfold utf8_char. destruct (N.ltb_spec (Byte.to_N a) 128); [|lia]. by rewrite byte_of_to_N. }
  destruct l1 as [|b l2]; [done|]. cbn [length] in Hn. pose proof (to_N_lt b) as Bb.
  destruct (byte_in 194 223 a && byte_in 128 191 b) eqn:E2.
  { apply andb_true_iff in E2 as [E2 E3]. apply byte_in_true in E2, E3.
    set (c := ((Byte.to_N a - 192) * 64 + (Byte.to_N b - 128))%N).
    apply (Hcons c [a; b] l2); [unfold scalar, c; lia| |lia|done].
    unfold utf8_char. destruct (N.ltb_spec c 128); [unfold c in *; lia|]. destruct (N.ltb_spec c 2048); [|unfold c in *; lia].
    f_equal; [|f_equal]; apply byte_eq; unfold c; narith. }
  destruct l2 as [|d l3]; [done|]. cbn [length] in Hn. pose proof (to_N_lt d) as Bd.
  match type of H with (if ?x then _ else _) = _ => destruct x eqn:E3 end.
  { apply andb_true_iff in H as [E4 H]. apply byte_in_true in E4.
    rewrite !orb_true_iff, !andb_true_iff, !byte_in_true in E3.
    set (c := ((Byte.to_N a - 224) * 4096 + (Byte.to_N b - 128) * 64 + (Byte.to_N d - 128))%N).
    assert (Hc : scalar c) by (unfold scalar, c; lia).
    apply (Hcons c [a; b; d] l3); [done| |lia|done].
    unfold utf8_char. destruct (N.ltb_spec c 128); [unfold c in *; lia|]. destruct (N.ltb_spec c 2048); [unfold c in *; lia|].
    destruct (N.ltb_spec c 65536); [|unfold c in *; lia].
    f_equal; [|f_equal; [|f_equal]]; apply byte_eq; unfold c; clear - E3 E4 Ba Bb Bd; narith. }
  destruct l3 as [|e l4]; [done|]. cbn [length] in Hn. pose proof (to_N_lt e) as Be.
  match type of H with (if ?x then _ else _) = _ => destruct x eqn:E4 end; [|done].
  apply andb_true_iff in H as [E6 H]. apply andb_true_iff in E6 as [E5 E6]. apply byte_in_true in E5, E6.
  rewrite !orb_true_iff, !andb_true_iff, !byte_in_true in E4.
  set (c := ((Byte.to_N a - 240) * 262144 + (Byte.to_N b - 128) * 4096 + (Byte.to_N d - 128) * 64 + (Byte.to_N e - 128))%N).
  assert (Hc : scalar c) by (unfold scalar, c; lia).
  apply (Hcons c [a; b; d; e] l4); [done| |lia|done].
  unfold utf8_char. destruct (N.ltb_spec c 128); [unfold c in *; lia|]. destruct (N.ltb_spec c 2048); [unfold c in *; lia|].
  destruct (N.ltb_spec c 65536); [unfold c in *; lia|].
  f_equal; [|f_equal; [|f_equal; [|f_equal]]]; apply byte_eq; unfold c; clear - E4 E5 E6 Ba Bb Bd Be; narith.
Qed.

Lemma utf8_iff b : utf8 b = true <-> is_utf8 b.
Proof.
  split; [by apply (utf8_sound (length b))|]. intros (cs & Hcs & ->).
  induction Hcs as [|c cs Hc _ IH]; [done|]. simpl. by rewrite utf8_char_app.
Qed.
