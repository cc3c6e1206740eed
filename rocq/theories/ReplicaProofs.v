(** Readers on a replica. *)
From Coq.Strings Require Import Byte.
From Coq Require Import Lia.
From stdpp Require Import prelude gmap.
From Verif Require Import Bytes Codec Model CodecProofs Order Wp Store Tree Iter Read Zip Pure Seq Mut MutDel MutTop Commit Spec OrderProofs Client Abs Api Call Det Reader Hist Main Demo Replica.

Local Arguments decode_block : simpl never.
Local Arguments blocks_get : simpl never.
Local Arguments api : simpl never.

(** ** The versions of the core *)
Lemma version_at fuel l n : history fuel 0 l -> (n <= length (w_core (world_after fuel l)))%nat ->
  let C := take n (w_core (world_after fuel l)) in
  exists m t, rep C m t /\ (length C <= fuel)%nat /\ length C = n /\ version_is fuel l n (Store n m).
Proof.
  intros H Hn. cbn zeta. destruct (all_lengths _ _ _ H Hn) as [->|(l1 & l2 & -> & El)].
  - exists [], None. rewrite take_length, Nat.min_l by done. split_and!; [split; [|done]; rewrite take_length; lia| |done|].
    + pose proof H as (_ & _ & Hlen & _). reach H. destruct Hfit as [Hf _]. unfold with_header in *. lia.
    + split_and!; [done|by apply header_only_behaves|by left].
  - pose proof (history_prefix _ _ _ _ H) as H1. pose proof (append_only _ _ _ _ H H1) as [k Hk].
    reach H1. exists m, t. assert (take n (w_core (world_after fuel (l1 ++ l2))) = w_core (world_after fuel l1)) as Et.
    { by rewrite Hk, <-El, take_app. }
    rewrite Et. destruct Hfit as [Hf _]. split_and!; [apply HI|unfold with_header in *; lia|done|].
    assert (N = n) as -> by congruence. split_and!; [done| |right; by exists l1, l2, rs].
    rewrite Et, <-El. eapply behaves_rep; apply HI.
Qed.

(** ** What the reads of a call meet *)
Definition now_meets (j : nat) (m : rmove) (y : rsys) : list fault :=
  match m with
  | RPoll j' => if (j' =? j)%nat then match v_task y !! j with Some (i, p) => rp_fault (v_rep y) p | None => [] end else []
  | RSync _ => []
  end.
Fixpoint meets (C : list bytes) (j : nat) (sched : list rmove) (y : rsys) : list fault :=
  match sched with
  | [] => []
  | m :: l => now_meets j m y ++ meets C j l (rstep C m y)
  end.

Lemma rrun_app C s1 : forall s2 y, rrun C (s1 ++ s2) y = rrun C s2 (rrun C s1 y).
Proof. induction s1 as [|m s1 IH]; intros s2 y; [done|]. apply IH. Qed.
(** A fault is a block that was asked for and lacking (or an append). *)
Lemma meets_why C j f sched : forall y, f ∈ meets C j sched y -> exists sa sb, sched = sa ++ RPoll j :: sb /\
  let ya := rrun C sa y in
  (f = FNone \/ (f = FMissing /\ exists q, r_asks ya j q /\ r_lacks ya q) \/ exists i b k, v_task ya !! j = Some (i, CoreAppend b k)).
Proof.
  induction sched as [|m sched IH]; intros y; cbn [meets]; [by intros ?%elem_of_nil|]. intros [Hf|Hf]%elem_of_app.
  - destruct m as [|j']; cbn in Hf; [by apply elem_of_nil in Hf|]. destruct (Nat.eqb_spec j' j) as [->|_]; [|by apply elem_of_nil in Hf].
    exists [], sched. split; [done|]. cbn. destruct (v_task y !! j) as [[i p]|] eqn:E; [|by apply elem_of_nil in Hf].
    destruct p as [a|x|k|q k|b k|q k|q e k|nd k|n k|n g k]; cbn [rp_fault] in Hf; try by apply elem_of_nil in Hf.
    + apply elem_of_list_singleton in Hf. destruct ((q <? rp_len (v_rep y))%nat && negb (rp_have (v_rep y) q)) eqn:Eq; [|by left].
      right; left. split; [done|]. exists q. apply andb_true_iff in Eq as [E1 E2]. apply Nat.ltb_lt in E1. apply negb_true_iff in E2.
      split; [by exists i, k|done].
    + right; right. by exists i, b, k.
  - destruct (IH _ Hf) as (sa & sb & -> & H). by exists (m :: sa), sb.
Qed.

(** A step consumes what it meets and nothing else. *)
Lemma step_meets (p : prog reply) C ca he r o :
  step p (St C ca he (rp_fault r p ++ o)) =
  (fst (step p (St C ca he (rp_fault r p))), set_oracle (snd (step p (St C ca he (rp_fault r p)))) o) /\
  core (snd (step p (St C ca he (rp_fault r p)))) = C.
Proof.
  destruct p as [a|x|k|q k|b k|q k|q e k|nd k|n k|n f k]; try done.
  - unfold rp_fault. by destruct ((q <? rp_len r)%nat && negb (rp_have r q)).
  - cbn. destruct (he !! n); done.
  - cbn. destruct (he !! n) as [nd|]; [|done]. by destruct (f nd).
Qed.


Section replica.
  Context (fuel : nat) (l : list event) (rds : list (nat * call)).
  Context (Hist : history fuel 0 l) (Hrd : Forall (fun x => reads_only (snd x) /\ call_ok (snd x)) rds).
  Local Notation C := (w_core (world_after fuel l)).
  Local Notation y0 := (rstart fuel rds).
  Definition rview (y : rsys) (i : nat) (o : list fault) : st :=
    St (take (rp_len (v_rep y)) C) (h_cache (v_hand y i)) (h_heap (v_hand y i)) o.

  Lemma take_prefix' {A} (n n' : nat) (D : list A) : (n <= n')%nat -> take n D `prefix_of` take n' D.
  Proof. intros H. exists (drop n (take n' D)). by rewrite <-(take_drop n (take n' D)) at 1; rewrite take_take, Nat.min_l by done. Qed.

  Record RInv (done rest : list rmove) (y : rsys) : Prop := {
    ri_len : (rp_len (v_rep y) <= length C)%nat;
    ri_syncs : syncs C (v_rep y) rest;
    ri_cext : forall i, cext (St [] ∅ [] []) (rview y i []);
    ri_task : forall j i c, rds !! j = Some (i, c) -> exists p, v_task y !! j = Some (i, p) /\
      ((RPoll j ∉ done /\ p = api fuel c) \/
       exists s1 s2 b, done = s1 ++ RPoll j :: s2 /\ RPoll j ∉ s1 /\ version_is fuel l (rp_len (v_rep (rrun C s1 y0))) b /\
         rwp cext cown p (reader_post c (meets C j (RPoll j :: s2 ++ rest) (rrun C s1 y0)) b) (fun _ _ => False) (rview y i (meets C j rest y))) }.

  Lemma rinv_init sched : syncs C rp_new sched -> RInv [] sched y0.
  Proof.
    intros Hs. split; [cbn; lia|done| |].
    - intros i. apply cext_refl.
    - intros j i c Hj. exists (api fuel c). cbn. rewrite list_lookup_fmap, Hj. split; [done|]. left. split; [apply not_elem_of_nil|done].
  Qed.

  Lemma fresh_cwf : cwf (St [] ∅ [] []).
  Proof. intros q e He. cbn in He. by rewrite lookup_empty in He. Qed.

  Lemma rinv_step done m rest y : y = rrun C done y0 -> RInv done (m :: rest) y -> RInv (done ++ [m]) rest (rstep C m y).
  Proof.
    intros Ey [Hn Hs Hc Ht]. destruct m as [r|j].
    - destruct Hs as [Hl Hs]. unfold rp_later in Hl.
      assert (forall i o, cext (rview y i o) (rview (rstep C (RSync r) y) i o)) as Hx.
      { intros i o. apply cext_grow; try done. cbn. apply take_prefix'; lia. }
      split; [cbn; lia|done| |].
      + intros i. eapply cext_trans; [apply Hc|apply Hx].
      + intros j i c Hj. destruct (Ht j i c Hj) as (p & H1 & H2). exists p. split; [done|].
        destruct H2 as [[H2 H3]|(s1 & s2 & b & H2 & H3 & H4 & H5)].
        * left. split; [|done]. rewrite elem_of_app, elem_of_list_singleton. intros [?|?]; done.
        * right. exists s1, (s2 ++ [RSync r]), b. split_and!; [by rewrite H2, <-app_assoc|done|done|].
          rewrite <-app_assoc. cbn [app]. eapply rwp_env_step; [apply Hx|exact H5].
    - cbn [rstep]. cbn in Hs. destruct (v_task y !! j) as [[i p]|] eqn:Ej.
      2:{ split; [done|done|done|]. intros j' i c Hj. destruct (Ht j' i c Hj) as (p & H1 & H2). exists p. split; [done|].
          assert (j' <> j) by congruence. destruct H2 as [[H2 H3]|(s1 & s2 & b & H2 & H3 & H4 & H5)].
          - left. split; [|done]. rewrite elem_of_app, elem_of_list_singleton. intros [?|?]; congruence.
          - right. exists s1, (s2 ++ [RPoll j]), b. split_and!; [by rewrite H2, <-app_assoc|done|done|].
            rewrite <-app_assoc. cbn [app]. cbn [meets now_meets rstep] in H5. rewrite Ej in H5.
            destruct (Nat.eqb_spec j j'); [congruence|]. exact H5. }
      set (s0 := St (take (rp_len (v_rep y)) C) (h_cache (v_hand y i)) (h_heap (v_hand y i)) (rp_fault (v_rep y) p)) in *.
      destruct (step p s0) as [p' s] eqn:Es.
      set (y' := RSys (v_rep y) (fun k => if (k =? i)%nat then Handle (cache s) (heap s) else v_hand y k) (<[j:=(i, p')]> (v_task y))).
      destruct (rds !! j) as [[i' c]|] eqn:Erj.
      2:{ exfalso. assert (length (v_task y) = length rds) as Hlen.
          { rewrite Ey. clear. assert (length (v_task y0) = length rds) as E by (cbn; by rewrite map_length).
            revert E. generalize y0. induction done as [|m l' IH]; intros y E; [done|]. cbn. apply IH.
            destruct m as [|j]; cbn; [done|]. destruct (v_task y !! j) as [[i p]|]; [|done]. destruct (step _ _). cbn. by rewrite insert_length. }
          apply lookup_lt_Some in Ej. apply lookup_ge_None in Erj. lia. }
      destruct (Ht j i' c Erj) as (p0 & H1 & H2). rewrite Ej in H1. injection H1 as <- <-.
      assert (reads_only c /\ call_ok c) as [Hro Hok].
      { rewrite Forall_forall in Hrd. apply (Hrd (i, c)). by eapply elem_of_list_lookup_2. }
      assert (rstep C (RPoll j) y = y') as Ey'. { cbn. rewrite Ej. fold s0. by rewrite Es. }
      assert (meets C j (RPoll j :: rest) y = rp_fault (v_rep y) p ++ meets C j rest y') as Em.
      { cbn [meets now_meets]. by rewrite Ey', Ej, Nat.eqb_refl. }
      destruct (step_meets p (take (rp_len (v_rep y)) C) (h_cache (v_hand y i)) (h_heap (v_hand y i)) (v_rep y) (meets C j rest y')) as [Hm Hcore].
      fold s0 in Hm, Hcore. rewrite Es in Hm, Hcore. cbn [fst snd] in Hm, Hcore. rewrite <-Em in Hm.
      change (step p (rview y i (meets C j (RPoll j :: rest) y)) = (p', set_oracle s (meets C j rest y'))) in Hm.
      assert (set_oracle s (meets C j rest y') = rview y' i (meets C j rest y')) as Hv.
      { unfold rview, y'. cbn. rewrite Nat.eqb_refl. cbn. unfold set_oracle. by rewrite Hcore. }
      (* the step of this task *)
      assert (cown (rview y i (meets C j (RPoll j :: rest) y)) (rview y' i (meets C j rest y')) /\
        exists s1 s2 b, done ++ [RPoll j] = s1 ++ RPoll j :: s2 /\ RPoll j ∉ s1 /\ version_is fuel l (rp_len (v_rep (rrun C s1 y0))) b /\
         rwp cext cown p' (reader_post c (meets C j (RPoll j :: s2 ++ rest) (rrun C s1 y0)) b) (fun _ _ => False) (rview y' i (meets C j rest y')))
        as [[Hcx _] Hrest].
      { destruct H2 as [[H2 ->]|(s1 & s2 & b & H2 & H3 & H4 & H5)].
        - destruct (version_at _ _ _ Hist Hn) as (m & t & V1 & V2 & V3 & V4).
          set (s' := rview y i (meets C j (RPoll j :: rest) y)) in *.
          assert (step (api fuel c) s' = (started (length (core s')) (api fuel c), s')) as Es' by (destruct c; done).
          rewrite Es' in Hm. pose proof (f_equal fst Hm) as Hp; pose proof (f_equal snd Hm) as Hst; cbn [fst snd] in Hp, Hst. rewrite <-Hv, <-Hst.
          split; [split; [apply cext_refl|done]|]. exists done, [], (Store (rp_len (v_rep y)) m).
          split_and!; [done|done|by rewrite <-Ey|]. rewrite <-Hp, <-Ey. cbn [app].
          assert (length (core s') = rp_len (v_rep y)) as El by exact V3. rewrite <-El.
          apply (reader_started s' m t fuel c); [done|done|exact V1| |by rewrite El, <-V3].
          assert (cext (St [] ∅ [] (oracle s')) s') as Hx by (exact (cext_set_oracle _ _ (oracle s') (Hc i))).
          eapply (rdy_cext _ _ _ _ _ _ _ []); [exact Hx|exact fresh_cwf|exact V1|]. apply okh_rdy, okh_fresh.
        - destruct (rwp_step _ _ _ H5) as [H7 H8]. rewrite Hm in H7, H8. cbn [fst snd] in H7, H8. rewrite Hv in H7, H8.
          split; [done|]. exists s1, (s2 ++ [RPoll j]), b. split_and!; [by rewrite H2, <-app_assoc|done|done|].
          rewrite <-app_assoc. exact H7. }
      assert (forall k o, cext (rview y k o) (rview y' k o)) as Hx.
      { intros k o. destruct (decide (k = i)) as [->|Hne]; [exact (cext_set_oracle _ _ o Hcx)|].
        unfold rview, y'. cbn. apply Nat.eqb_neq in Hne as ->. apply cext_refl. }
      split; [done|done| |].
      + intros k. eapply cext_trans; [apply Hc|apply Hx].
      + intros j' i' c' Hj'. destruct (decide (j' = j)) as [->|Hne].
        * rewrite Erj in Hj'. injection Hj' as <- <-. exists p'. split; [|by right].
          cbn. apply list_lookup_insert. by eapply lookup_lt_Some.
        * destruct (Ht j' i' c' Hj') as (q & T1 & T2). exists q. split; [cbn; by rewrite list_lookup_insert_ne|].
          destruct T2 as [[T2 T3]|(s1 & s2 & b & T2 & T3 & T4 & T5)].
          -- left. split; [|done]. rewrite elem_of_app, elem_of_list_singleton. intros [?|?]; congruence.
          -- right. exists s1, (s2 ++ [RPoll j]), b. split_and!; [by rewrite T2, <-app_assoc|done|done|].
             rewrite <-app_assoc. cbn [app]. assert (meets C j' (RPoll j :: rest) y = meets C j' rest y') as Em'.
             { cbn [meets now_meets]. rewrite Ey'. by destruct (Nat.eqb_spec j j'); [congruence|]. }
             rewrite Em' in T5. exact (rwp_env_step _ _ _ _ _ (Hx i' _) T5).
  Qed.

  Lemma rinv_run sched : syncs C rp_new sched -> forall rest done, sched = done ++ rest -> RInv done rest (rrun C done y0).
  Proof.
    intros Hs rest done. revert rest. induction done as [|m done IH] using rev_ind; intros rest E.
    - cbn in E. subst. by apply rinv_init.
    - rewrite <-app_assoc in E. specialize (IH _ E). rewrite rrun_app. cbn [rrun app] in *. by apply rinv_step.
  Qed.

  (** A call that reads never appends. *)
  Lemma reading_task sched j i c sa sb : syncs C rp_new sched -> rds !! j = Some (i, c) -> sched = sa ++ sb ->
    forall i' b k, v_task (rrun C sa y0) !! j <> Some (i', CoreAppend b k).
  Proof.
    intros Hs Hj E i' b k Ht. destruct (rinv_run _ Hs _ _ E) as [_ _ _ HT]. destruct (HT j i c Hj) as (p & H1 & H2).
    rewrite Ht in H1. injection H1 as <- <-. destruct H2 as [[_ H2]|(s1 & s2 & b' & _ & _ & _ & H5)].
    - rewrite Forall_forall in Hrd. destruct (Hrd (i', c)) as [Hro _]; [by eapply elem_of_list_lookup_2|]. by destruct c.
    - set (s := rview _ _ _) in H5. assert (cext s (set_oracle s [])) as Hx. { apply cext_grow; try done. apply suffix_nil. }
      specialize (H5 _ Hx). cbn in H5. destruct H5 as [[_ H5] _]. cbn in H5. apply (f_equal length) in H5. rewrite app_length in H5. cbn in H5. lia.
  Qed.

  Lemma syncs_app C' r sa sb : syncs C' r (sa ++ sb) -> syncs C' r sa.
  Proof. revert r. induction sa as [|[r'|j] sa IH]; intros r; cbn; [done| |apply IH]. intros [? ?]. split; [done|by apply IH]. Qed.

  Lemma replica_answers sched j i c : syncs C rp_new sched -> rds !! j = Some (i, c) ->
    let y := rrun C sched y0 in
    r_stopped y j = None /\
    forall r, r_answer y j = Some r -> exists s1 s2 b, sched = s1 ++ RPoll j :: s2 /\ RPoll j ∉ s1 /\
      version_is fuel l (rp_len (v_rep (rrun C s1 y0))) b /\
      (r = fst (spec_call c b) \/
       (exists sa sb q, sched = sa ++ RPoll j :: sb /\ r_asks (rrun C sa y0) j q /\ r_lacks (rrun C sa y0) q) /\
       exists o, Forall (fun f => f = FNone \/ f = FMissing) o /\ failed_reply (fun _ _ => True) c o (s_entries b) r).
  Proof.
    intros Hs Hj. cbn zeta. destruct (rinv_run sched Hs [] sched) as [_ _ _ HT]; [by rewrite app_nil_r|].
    destruct (HT j i c Hj) as (p & H1 & H2). unfold r_stopped, r_answer. rewrite H1. cbn [fmap option_fmap option_map snd].
    destruct H2 as [[_ ->]|(s1 & s2 & b & H2 & H3 & H4 & H5)].
    { rewrite Forall_forall in Hrd. destruct (Hrd (i, c)) as [Hro _]; [by eapply elem_of_list_lookup_2|]. by destruct c. }
    destruct p as [r|x|k|q k|bb k|q k|q e k|nd k|n k|n f k]; try (split; [done|]; intros ? [=]).
    2:{ destruct (H5 _ (cext_refl _)). }
    subst r. exists s1, s2, b. split_and!; [done|done|done|]. rewrite app_nil_r in H5.
    assert (forall f, f ∈ meets C j (RPoll j :: s2) (rrun C s1 y0) -> f = FNone \/ f = FMissing /\
      exists sa sb q, sched = sa ++ RPoll j :: sb /\ r_asks (rrun C sa y0) j q /\ r_lacks (rrun C sa y0) q) as Hf.
    { intros f Hf. destruct (meets_why _ _ _ _ _ Hf) as (sa & sb & E & Hw). cbn zeta in Hw. rewrite <-rrun_app in Hw.
      assert (sched = (s1 ++ sa) ++ RPoll j :: sb) as Esc by (by rewrite <-app_assoc, <-E, H2).
      destruct Hw as [?|[(-> & q & Hw)|(i' & b' & k & Hw)]]; [by left| |].
      - right. split; [done|]. by exists (s1 ++ sa), sb, q.
      - by eapply reading_task in Hw. }
    destruct (H5 _ (cext_refl _)) as [?|[Ho Hr]]; [by left|]. right. split.
    - apply Exists_exists in Ho as (f & Hin & Hne). destruct (Hf f Hin) as [?|[_ ?]]; done.
    - eexists. split; [|exact Hr]. apply Forall_forall. intros f Hin. destruct (Hf f Hin) as [?|[? _]]; auto.
  Qed.

  (** A replica that has all it knows of answers like the writer did. *)
  Lemma replica_caught_up sched j i c : syncs C rp_new sched -> rds !! j = Some (i, c) ->
    (forall sa sb, sched = sa ++ RPoll j :: sb -> forall q, ~ r_lacks (rrun C sa y0) q) ->
    forall r, r_answer (rrun C sched y0) j = Some r -> exists s1 s2 b, sched = s1 ++ RPoll j :: s2 /\ RPoll j ∉ s1 /\
      version_is fuel l (rp_len (v_rep (rrun C s1 y0))) b /\ r = fst (spec_call c b).
  Proof.
    intros Hs Hj Hall r Hr. destruct (replica_answers _ _ _ _ Hs Hj) as [_ H]. destruct (H r Hr) as (s1 & s2 & b & H1 & H2 & H3 & H4).
    exists s1, s2, b. split_and!; [done..|]. destruct H4 as [?|[(sa & sb & q & E & _ & Hl) _]]; [done|]. by destruct (Hall _ _ E q).
  Qed.
End replica.

(** With all blocks, a reader answers as any handle of the writer. *)
Lemma replica_complete fuel l rds sched j i c : history fuel 1 l -> Forall (fun x => reads_only (snd x) /\ call_ok (snd x)) rds ->
  let C := w_core (world_after fuel l) in
  let y0 := rstart fuel rds in
  syncs C rp_new sched -> rds !! j = Some (i, c) ->
  (forall sa sb, sched = sa ++ RPoll j :: sb -> let r := v_rep (rrun C sa y0) in rp_len r = length C /\ forall q, (q < length C)%nat -> rp_have r q = true) ->
  forall r, r_answer (rrun C sched y0) j = Some r -> forall k, usable l k -> fst (do_call fuel k c [] (world_after fuel l)) = inl r.
Proof.
  intros H Hrd. cbn zeta. intros Hs Hj Hall r Hr k Hk. assert (history fuel 0 l) as H0 by (destruct H as (? & ? & ? & ?); split_and!; [done|done|lia|lia]).
  destruct (replica_caught_up fuel l rds H0 Hrd sched j i c Hs Hj) with (r := r) as (s1 & s2 & b & E1 & E2 & (V1 & V2 & _) & ->); [|done|].
  { intros sa sb E q [Hq1 Hq2]. destruct (Hall _ _ E) as [L1 L2]. rewrite L1 in Hq1. rewrite (L2 q Hq1) in Hq2. done. }
  destruct (Hall _ _ E1) as [L1 _]. rewrite L1 in V2. rewrite firstn_all in V2. clear E1 E2. reach H.
  rewrite Forall_forall in Hrd. destruct (Hrd (i, c)) as [_ Hok]; [by eapply elem_of_list_lookup_2|]. cbn in Hok.
  destruct (call_clean _ _ _ _ _ _ k c HI Hk Hfit Hok) as (w1 & D1 & _). rewrite D1. cbn [fst].
  assert (behaves fuel (w_core (world_after fuel l)) (Store N m)) as HB by (rewrite <-HN; eapply behaves_rep; apply HI).
  destruct Hfit as [Hf1 Hf2]. set (CC := w_core (world_after fuel l)) in *.
  assert (forall b', behaves fuel CC b' -> fst (do_call fuel 0 c [] (new_world CC)) = inl (fst (spec_call c b'))) as Hone.
  { intros b' Hb.
    assert (Forall event_ok [EvCall 0 c []]) as F1 by (by apply Forall_singleton).
    assert (Forall clean [EvCall 0 c []]) as F2 by (apply Forall_singleton; by intros ?%Exists_nil).
    destruct (Hb _ F1 F2) as [w Hw]; [unfold with_header in *; cbn [length]; lia..|].
    cbn [play calls_of spec_run] in Hw. destruct (do_call fuel 0 c [] (new_world CC)) as [r w']. destruct (spec_call c b') as [r' b1].
    cbn [map fst spec_run] in Hw. by injection Hw as -> _. }
  pose proof (Hone _ V2) as O1. pose proof (Hone _ HB) as O2. rewrite O1 in O2. injection O2 as ->. by rewrite HN.
Qed.

(** ** Every call ends *)
Lemma rmap_seq {A} (f : nat -> A) n : map f (seq 0 (S n)) = f 0 :: map (fun k => f (S k)) (seq 0 n).
Proof. cbn [seq map]. f_equal. by rewrite <-seq_shift, map_map. Qed.
Definition rpolls (m : rmove) (j : nat) : {m = RPoll j} + {m <> RPoll j}.
Proof. destruct m as [r|j']; [by right|]. destruct (decide (j' = j)) as [->|]; [by left|right; congruence]. Defined.

Lemma rfinishes C j (p : prog reply) : forall y i (f : nat -> rmove), v_task y !! j = Some (i, p) ->
  (forall n, exists k, n <= k /\ f k = RPoll j)%nat ->
  exists n, let y' := rrun C (map f (seq 0 n)) y in is_Some (r_answer y' j) \/ is_Some (r_stopped y' j).
Proof.
  set (goal := fun (y : rsys) (f : nat -> rmove) => exists n, let y' := rrun C (map f (seq 0 n)) y in is_Some (r_answer y' j) \/ is_Some (r_stopped y' j)).
  assert (forall (p : prog reply) (P : prog reply -> Prop),
    (forall q y i (f : nat -> rmove), P q -> v_task y !! j = Some (i, q) -> (forall n, exists k, n <= k /\ f k = RPoll j)%nat -> goal y f) ->
    (forall s, P (fst (step p s))) ->
    forall y i (f : nat -> rmove), v_task y !! j = Some (i, p) -> (forall n, exists k, n <= k /\ f k = RPoll j)%nat -> goal y f) as Hstep.
  { intros q P IH HP y i f Ht Hf. destruct (Hf 0) as (k & _ & Hk). revert y f Ht Hf Hk.
    induction k as [|k IHk]; intros y f Ht Hf Hk.
    all: assert (forall n, exists k, n <= k /\ (fun k => f (S k)) k = RPoll j)%nat as Hf'
      by (intros n; destruct (Hf (S n)) as (k' & Hle & Hk'); destruct k' as [|k']; [lia|]; exists k'; split; [lia|done]).
    all: assert (f 0 = RPoll j -> goal y f) as Hnow.
    1,3: intros H0; assert (exists q', P q' /\ v_task (rstep C (RPoll j) y) !! j = Some (i, q')) as (q' & HPs & Ht')
      by (cbn; rewrite Ht; match goal with |- context [step ?x ?s] => pose proof (HP s) as HPs; destruct (step x s) as [q' s'] end;
          exists q'; split; [exact HPs|]; cbn; apply list_lookup_insert; by eapply lookup_lt_Some);
      destruct (IH q' _ i (fun k => f (S k)) HPs Ht' Hf') as [n Hn]; exists (S n); rewrite rmap_seq, H0; exact Hn.
    - by apply Hnow.
    - destruct (rpolls (f 0) j) as [H0|H0]; [by apply Hnow|].
      edestruct (IHk (rstep C (f 0) y) (fun k => f (S k))) as [n Hn]; [|exact Hf'|exact Hk|].
      + destruct (f 0) as [r|j']; [done|]. cbn. destruct (v_task y !! j') as [[i' p']|]; [|done]. destruct (step p' _).
        cbn. rewrite list_lookup_insert_ne; [done|congruence].
      + exists (S n). by rewrite rmap_seq. }
  assert (forall (x : stop) y i (f : nat -> rmove), v_task y !! j = Some (i, Stop x) -> goal y f) as Hst.
  { intros x y i f Ht. exists 0. right. exists x. cbn. unfold r_stopped. by rewrite Ht. }
  induction p as [r|x|k IH|q k IH|b k IH|q k IH|q e k IH|nd k IH|n k IH|n g k IH].
  - intros y i f Ht _. exists 0. left. exists r. cbn. unfold r_answer. by rewrite Ht.
  - intros y i f Ht _. by eapply Hst.
  - apply (Hstep _ (fun q => exists n, q = k n)); [intros q y i f [n ->]; by apply IH|]. intros s. by eexists.
  - apply (Hstep _ (fun q' => exists n, q' = k n)); [intros q' y i f [n ->]; by apply IH|]. intros s. cbn. destruct (exec_get q s). by eexists.
  - apply (Hstep _ (fun q => exists n, q = k n)); [intros q y i f [n ->]; by apply IH|]. intros s. cbn. destruct (exec_append b s). by eexists.
  - apply (Hstep _ (fun q => exists n, q = k n)); [intros ? y i f [n ->]; by apply IH|]. intros s. by eexists.
  - apply (Hstep _ (fun q => q = k)); [intros ? y i f ->; by apply IH|]. done.
  - apply (Hstep _ (fun q => exists n, q = k n)); [intros ? y i f [n ->]; by apply IH|]. intros s. by eexists.
  - apply (Hstep _ (fun q => (exists x, q = k x) \/ exists x, q = Stop x)); [intros ? y i f [[x ->]|[x ->]]; [by apply IH|by intros ? _; eapply Hst]|].
    intros s. cbn. destruct (heap s !! n); [left|right]; by eexists.
  - apply (Hstep _ (fun q => (exists x, q = k x) \/ exists x, q = Stop x)); [intros ? y i f [[x ->]|[x ->]]; [by apply IH|by intros ? _; eapply Hst]|].
    intros s. cbn. destruct (heap s !! n) as [nd|]; [destruct (g nd)|]; [left|right|right]; by eexists.
Qed.

Lemma replica_ends fuel l rds j i c (f : nat -> rmove) : history fuel 0 l -> Forall (fun x => reads_only (snd x) /\ call_ok (snd x)) rds ->
  let C := w_core (world_after fuel l) in
  (forall n, syncs C rp_new (map f (seq 0 n))) -> rds !! j = Some (i, c) -> (forall n, exists k, n <= k /\ f k = RPoll j)%nat ->
  exists n r, r_answer (rrun C (map f (seq 0 n)) (rstart fuel rds)) j = Some r.
Proof.
  intros H Hrd. cbn zeta. intros Hs Hj Hf. destruct (rfinishes (w_core (world_after fuel l)) j (api fuel c) (rstart fuel rds) i f) as [n Hn]; [|done|].
  { cbn. by rewrite list_lookup_fmap, Hj. }
  destruct (replica_answers fuel l rds H Hrd _ j i c (Hs n) Hj) as [Hno _]. destruct Hn as [[r Hr]|[x Hx]]; [by exists n, r|].
  rewrite Hno in Hx. done.
Qed.

(** ** A case: the replica grows in three steps, beside five calls. *)
Definition demo_remote : list (nat * call) :=
  [(0, CGet (kb 11)); (0, CGet (kb 11)); (1, CTraverse (Config (Finite (kb 8)) true (Finite (kb 13)) false false)); (0, CGet (kb 11)); (1, CVersion)].
Definition demo_sync : list rmove :=
  [RSync (Replica 20 (fun q => (q =? 19)%nat))] ++ repeat (RPoll 0) 40 ++
  [RSync (Replica 20 (fun q => (q <? 20)%nat))] ++ repeat (RPoll 1) 20 ++ repeat (RPoll 2) 10 ++
  [RSync (Replica 32 (fun q => (q <? 20)%nat))] ++ repeat (RPoll 2) 200 ++ repeat (RPoll 1) 60 ++ [RPoll 4] ++
  [RSync (Replica 32 (fun q => (q <? 32)%nat))] ++ repeat (RPoll 3) 60.
Lemma syncs_polls C r j n s : syncs C r s -> syncs C r (repeat (RPoll j) n ++ s).
Proof. induction n as [|n IH]; intros H; [done|by apply IH]. Qed.
Lemma demo_syncs C : length C = 32 -> syncs C rp_new demo_sync.
Proof.
  intros E. unfold demo_sync. rewrite <-(app_nil_r (repeat (RPoll 3) 60)).
  split; [unfold rp_later; cbn [rp_len rp_new]; lia|]. apply syncs_polls.
  split; [unfold rp_later; cbn [rp_len]; lia|]. apply syncs_polls. apply syncs_polls.
  split; [unfold rp_later; cbn [rp_len]; lia|]. apply syncs_polls. apply syncs_polls. apply (syncs_polls _ _ 4 1).
  split; [unfold rp_later; cbn [rp_len]; lia|]. by apply syncs_polls.
Qed.

Lemma polls_keep C sa : forall sb j n y, repeat (RPoll j) n = sa ++ sb -> v_rep (rrun C sa y) = v_rep y.
Proof.
  induction sa as [|m sa IH]; intros sb j n y E; [done|]. destruct n as [|n]; [done|]. cbn [repeat app] in E. injection E as <- E.
  cbn [rrun]. rewrite (IH _ _ _ _ E). cbn. destruct (v_task y !! j) as [[i p]|]; [|done]. by destruct (step p _).
Qed.
Lemma demo_alone C : length C = 32 ->
  let alone := [RSync (Replica 32 (fun q => (q <? 32)%nat))] ++ repeat (RPoll 3) 60 in
  syncs C rp_new alone /\
  forall sa sb, alone = sa ++ RPoll 3 :: sb -> let r := v_rep (rrun C sa (rstart 60 demo_remote)) in
    rp_len r = length C /\ forall q, (q < length C)%nat -> rp_have r q = true.
Proof.
  intros E. cbn zeta. split.
  - split; [unfold rp_later; cbn [rp_len rp_new]; lia|]. rewrite <-(app_nil_r (repeat _ _)). by apply syncs_polls.
  - intros sa sb Ea. destruct sa as [|m sa]; [done|]. cbn [app] in Ea. injection Ea as <- Ea. cbn [rrun].
    rewrite (polls_keep _ sa (RPoll 3 :: sb) 3 60 _ Ea). cbn [rstep v_rep rp_len rp_have]. split; [done|]. intros q Hq. apply Nat.ltb_lt. lia.
Qed.
Lemma demo_polls C : length C = 32 -> 
  let f n := match n with 0 => RSync (Replica 32 (fun q => (q <? 32)%nat)) | S _ => RPoll 3 end in
  forall n, syncs C rp_new (map f (seq 0 n)).
Proof.
  intros E. cbn zeta. intros [|n]; [done|]. rewrite rmap_seq. split; [unfold rp_later; cbn [rp_len rp_new]; lia|].
  generalize (seq 0 n) as ks. intros ks. match goal with |- syncs _ ?r _ => generalize r end. induction ks as [|k ks IH]; intros r; [done|]. apply IH.
Qed.
Lemma demo_alone_has C : length C = 32 ->
  forall sa sb, [RSync (Replica 32 (fun q => (q <? 32)%nat))] ++ repeat (RPoll 3) 60 = sa ++ RPoll 3 :: sb ->
  forall q, ~ r_lacks (rrun C sa (rstart 60 demo_remote)) q.
Proof.
  intros E sa sb Ea q [Hq Hn]. destruct (proj2 (demo_alone _ E) sa sb Ea) as [L1 L2]. rewrite L1 in Hq. rewrite (L2 q Hq) in Hn. done.
Qed.
