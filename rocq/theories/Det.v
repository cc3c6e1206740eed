(** The block a write appends is determined by the core and the call. *)
From Coq.Strings Require Import Byte.
From Coq Require Import Lia Sorting.Sorted.
From stdpp Require Import prelude gmap.
From Verif Require Import Bytes Codec Model CodecProofs Order Wp Store Tree Iter Read Zip Pure Seq Mut MutDel MutTop Commit Spec OrderProofs Client Abs Api Call.

Lemma limit_cmp_eq k x : limit_cmp k x = Eq -> k = Finite x.
Proof. destruct k as [a| |]; simpl; [|done|done]. by intros ->%bytes_cmp_eq. Qed.

Lemma idx_ok_det D key ks m1 i1 m2 i2 : ksorted D ks -> idx_ok D key ks m1 i1 -> idx_ok D key ks m2 i2 -> m1 = m2 /\ i1 = i2.
Proof.
  intros Hs. destruct m1 as [q1|], m2 as [q2|]; simpl.
  - intros [H1 E1] [H2 E2]. apply limit_cmp_eq in E1. apply limit_cmp_eq in E2. rewrite E1 in E2. injection E2 as E.
    destruct (Nat.lt_trichotomy i1 i2) as [H|[->|H]].
    + pose proof (ksorted_lookup _ _ _ _ _ _ Hs H H1 H2) as Hb. rewrite E in Hb. by apply blt_irrefl in Hb.
    + rewrite H1 in H2. injection H2 as ->. done.
    + pose proof (ksorted_lookup _ _ _ _ _ _ Hs H H2 H1) as Hb. rewrite E in Hb. by apply blt_irrefl in Hb.
  - intros [H1 E1] (_ & H2 & H3). destruct (Nat.lt_ge_cases i1 i2) as [H|H]; [rewrite (H2 _ _ H H1) in E1|rewrite (H3 _ _ H H1) in E1]; done.
  - intros (_ & H2 & H3) [H1 E1]. destruct (Nat.lt_ge_cases i2 i1) as [H|H]; [rewrite (H2 _ _ H H1) in E1|rewrite (H3 _ _ H H1) in E1]; done.
  - intros (L1 & A1 & B1) (L2 & A2 & B2). split; [done|]. destruct (Nat.lt_trichotomy i1 i2) as [H|[->|H]]; [|done|].
    + destruct (lookup_lt_is_Some_2 ks i1) as [q Hq]; [lia|]. specialize (B1 i1 q (le_n _) Hq). rewrite (A2 _ _ H Hq) in B1. done.
    + destruct (lookup_lt_is_Some_2 ks i2) as [q Hq]; [lia|]. specialize (B2 i2 q (le_n _) Hq). rewrite (A1 _ _ H Hq) in B2. done.
Qed.

Lemma desc_det D key T m1 p1 : desc D key T m1 p1 -> forall h m2 p2, shape h T -> ksorted D (flat T) ->
  desc D key T m2 p2 -> m1 = m2 /\ p1 = p2.
Proof.
  induction 1 as [t q i Hi|t i Hi Hk|t i c m p Hi Hc Hd IH]; intros h m2 p2 Hs Hso H2.
  all: assert (ksorted D (tkeys t)) as Hsk by (eapply ksorted_sublist; [by eapply tkeys_sublist|done]).
  - inversion H2 as [t' q' i' Hi'|t' i' Hi' Hk'|t' i' c' m' p' Hi' Hc' Hd']; subst;
      destruct (idx_ok_det _ _ _ _ _ _ _ Hsk Hi Hi') as [E ->]; [by injection E as ->|done|].
    done.
  - inversion H2 as [t' q' i' Hi'|t' i' Hi' Hk'|t' i' c' m' p' Hi' Hc' Hd']; subst;
      destruct (idx_ok_det _ _ _ _ _ _ _ Hsk Hi Hi') as [E ->]; [done|done|]. by rewrite Hk, lookup_nil in Hc'.
  - inversion H2 as [t' q' i' Hi'|t' i' Hi' Hk'|t' i' c' m' p' Hi' Hc' Hd']; subst;
      destruct (idx_ok_det _ _ _ _ _ _ _ Hsk Hi Hi') as [E ->]; [done|by rewrite Hk', lookup_nil in Hc|].
    rewrite Hc in Hc'. injection Hc' as <-. destruct h as [|h]; [apply shape_leaf in Hs; by rewrite Hs, lookup_nil in Hc|].
    destruct (IH h m2 p') as [-> ->]; [|by eapply ksorted_sublist; [eapply kid_sublist|]|done|done].
    eapply shape_kids; [exact Hs|]. by eapply elem_of_list_lookup_2.
Qed.

Lemma sub_sublist h T u : shape h T -> u ∈ subs T -> sublist (flat u) (flat T).
Proof.
  revert h. induction T as [r ks cs IH] using tree_ind'. intros h Hs Hu.
  apply elem_of_cons in Hu as [->|Hu]; [done|]. apply elem_of_list_In, in_concat in Hu as (l & (c & <- & Hc)%in_map_iff & Hu).
  apply elem_of_list_In in Hc. apply elem_of_list_In in Hu.
  rewrite Forall_forall in IH. destruct h as [|h]; [destruct Hs as [Hs _]; subst cs; by apply elem_of_nil in Hc|].
  pose proof Hc as Hc'. apply elem_of_list_lookup in Hc' as [i Hi].
  etrans; [|by eapply (kid_sublist (Nd r ks cs))].
  destruct Hs as (_ & _ & Hs). rewrite Forall_forall in Hs. eapply (IH c Hc h); [|done]. by apply Hs.
Qed.

Lemma dplace_det D T h b1 tp1 b2 tp2 u i tp : shape h T -> ksorted D (flat T) -> u ∈ subs T ->
  dplace D ((u, i) :: tp) b1 tp1 -> dplace D ((u, i) :: tp) b2 tp2 -> b1 = b2 /\ tp1 = tp2.
Proof.
  intros Hs Hso Hu H1 H2.
  assert (forall j c, tkids u !! j = Some c -> exists g, shape g c /\ ksorted D (flat c)) as Hc.
  { intros j c Hj. assert (c ∈ subs T) as Hin.
    { eapply subs_trans; [exact Hu|]. eapply subs_kid; [by eapply elem_of_list_lookup_2|apply subs_self]. }
    destruct (shape_sub _ _ _ Hs Hin) as (g & _ & Hg). exists g. split; [done|].
    apply (ksorted_sublist _ _ (flat T)); [exact (sub_sublist _ _ _ Hs Hin)|done]. }
  inversion H1 as [b i' tp' K1|u' ci tp' lc rc m1 lb li ltp m2 rb ri rtp dk rest K1 K2 K3 K4 K5 K6|u' ci tp' lc rc m1 lb li ltp m2 rb ri rtp dk rest K1 K2 K3 K4 K5 K6]; subst;
  inversion H2 as [b0 i0' tp0' J1|u0' ci0 tp0' lc0 rc0 m10 lb0 li0 ltp0 m20 rb0 ri0 rtp0 dk0 rest0 J1 J2 J3 J4 J5 J6|u0' ci0 tp0' lc0 rc0 m10 lb0 li0 ltp0 m20 rb0 ri0 rtp0 dk0 rest0 J1 J2 J3 J4 J5 J6]; subst;
    try done; try (by rewrite K1, lookup_nil in J1); try (by rewrite J1, lookup_nil in K1).
  all: rewrite K1 in J1; injection J1 as <-; rewrite K2 in J2; injection J2 as <-;
    destruct (Hc _ _ K1) as (g1 & S1 & O1); destruct (Hc _ _ K2) as (g2 & S2 & O2);
    destruct (desc_det _ _ _ _ _ K3 _ _ _ S1 O1 J3) as [_ E1]; destruct (desc_det _ _ _ _ _ K4 _ _ _ S2 O2 J4) as [_ E2];
    injection E1 as <- <- <-; injection E2 as <- <- <-; try lia.
  - rewrite K6 in J6. injection J6 as <- <-. done.
  - rewrite K6 in J6. apply app_inj_tail in J6 as [<- <-]. done.
Qed.

Lemma put_ghost_det C key m t T1 T2 : rep C m t -> put_ghost C key t T1 -> put_ghost C key t T2 -> T1 = T2.
Proof.
  destruct t as [T|]; simpl.
  - intros (_ & h & HW & _) (m1 & p1 & H1 & ->) (m2 & p2 & H2 & ->).
    destruct (desc_det _ _ _ _ _ H1 _ _ _ (proj1 (wf_shape _ _ _ _ HW)) (wf_sort _ _ _ _ HW) H2) as [-> ->]. done.
  - by intros _ -> ->.
Qed.

Lemma del_ghost_det C key m t T1 T2 : rep C m t -> del_ghost C key t T1 -> del_ghost C key t T2 -> T1 = T2.
Proof.
  intros Hr (T & q1 & tp1 & b1 & tp1' & l1 & D1 & -> & H1 & P1 & E1) (T0 & q2 & tp2 & b2 & tp2' & l2 & D2 & [= <-] & H2 & P2 & E2).
  destruct Hr as (_ & h & HW & _). pose proof (proj1 (wf_shape _ _ _ _ HW)) as Hs. pose proof (wf_sort _ _ _ _ HW) as Hso.
  destruct (desc_det _ _ _ _ _ H1 _ _ _ Hs Hso H2) as [_ <-].
  destruct (desc_zip _ _ _ _ _ _ 1 H1 Hs) as (b & i & tp' & g & -> & Hch & _).
  { destruct (wf_shape _ _ _ _ HW) as [_ [->|Hne]]; [by left|right]. destruct (tkeys T); [done|simpl; lia]. }
  { done. }
  destruct (dplace_det _ _ _ _ _ _ _ _ _ _ Hs Hso (chain_subs _ _ _ Hch) P1 P2) as [<- <-].
  rewrite E1 in E2. by injection E2.
Qed.

Lemma rep_headed C m t : rep C m t -> rep (headed C) m t.
Proof.
  destruct t as [T|]; intros Hr.
  - rewrite headed_some; [done|]. destruct Hr. lia.
  - destruct Hr as [H1 H2]. split; [|done]. rewrite headed_length. unfold with_header. lia.
Qed.

Lemma appends_det C (G : tree -> Prop) key value C1 T1 C2 T2 : (forall T T', G T -> G T' -> T = T') ->
  appends C G key value C1 T1 -> appends C G key value C2 T2 -> C1 = C2 /\ T1 = T2.
Proof.
  intros HG [(T & H1 & ->) [-> _]] [(T' & H2 & ->) [-> _]]. by rewrite (HG _ _ H1 H2).
Qed.

Lemma effect_det c C m t C1 t1 C2 t2 : rep C m t -> effect c C m t C1 t1 -> effect c C m t C2 t2 -> C1 = C2 /\ t1 = t2.
Proof.
  intros Hr. pose proof (rep_headed _ _ _ Hr) as Hr'.
  assert (forall k v, (exists T', t1 = Some T' /\ appends (headed C) (put_ghost (headed C) k t) k v C1 T') ->
    (exists T', t2 = Some T' /\ appends (headed C) (put_ghost (headed C) k t) k v C2 T') -> C1 = C2 /\ t1 = t2) as Hput.
  { intros k v (T1 & -> & H1) (T2 & -> & H2). destruct (appends_det _ _ _ _ _ _ _ _ (fun T T' => put_ghost_det _ _ _ _ T T' Hr') H1 H2) as [-> ->]. done. }
  assert (forall k, (exists T', t1 = Some T' /\ appends C (del_ghost C k t) k None C1 T') ->
    (exists T', t2 = Some T' /\ appends C (del_ghost C k t) k None C2 T') -> C1 = C2 /\ t1 = t2) as Hdel.
  { intros k (T1 & -> & H1) (T2 & -> & H2). destruct (appends_det _ _ _ _ _ _ _ _ (fun T T' => del_ghost_det _ _ _ _ T T' Hr) H1 H2) as [-> ->]. done. }
  destruct c as [k|k v|k v f|k|k f| |md|conf]; simpl; try (intros [-> ->] [-> ->]; done).
  - apply Hput.
  - destruct (f _ _); [apply Hput|]. intros [-> ->] [-> ->]. done.
  - destruct (lookup_key k m); [apply Hdel|]. intros [-> ->] [-> ->]. done.
  - destruct (lookup_key k m) as [e|]; [|intros [-> ->] [-> ->]; done]. destruct (f e); [apply Hdel|]. intros [-> ->] [-> ->]. done.
Qed.
