(** What one API call does, whichever call it is. *)
From Coq.Strings Require Import Byte.
From Coq Require Import Lia Sorting.Sorted.
From stdpp Require Import prelude gmap.
From Verif Require Import Bytes Codec Model CodecProofs Order Wp Store Tree Iter Read Zip Pure Seq Mut MutDel MutTop Commit Spec OrderProofs Client Abs Api.

(** The block a write appends, as a relation between cores. *)
Definition appends (C : list bytes) (G : tree -> Prop) (key : bytes) (value : option bytes) (C' : list bytes) (T' : tree) : Prop :=
  (exists T, G T /\ T' = fst (relabel (length C) 0 T)) /\
  C' = C ++ [encode_block (map to_level (map node_of (newsubs (length C) T'))) key value] /\
  blk C' (length C) = Some (Block (map node_of (newsubs (length C) T')) key value).

(** What a call does to the core. *)
Definition effect (c : call) (C : list bytes) (m : list kvdata) (t : option tree) (C' : list bytes) (t' : option tree) : Prop :=
  let H := headed C in
  let put k v := exists T', t' = Some T' /\ appends H (put_ghost H k t) k v C' T' in
  let del k := exists T', t' = Some T' /\ appends C (del_ghost C k t) k None C' T' in
  let same := C' = C /\ t' = t in
  match c with
  | CPut k v => put k v
  | CPutCas k v f => if f (lookup_key k m) (KV (length H) k v) then put k v else C' = H /\ t' = t
  | CDel k => match lookup_key k m with None => same | Some _ => del k end
  | CDelCas k f => match lookup_key k m with None => same | Some e => if f e then del k else same end
  | CHeader md => t' = t /\ C' = match C with [] => [header_block md] | _ => C end
  | _ => same
  end.

(** The state after a call that took effect. *)
Record settled {BB : Base} (c : call) (s : st) (m : list kvdata) (t : option tree) (s' : st) : Prop := {
  se_eff : exists t', effect c (core s) m t (core s') t' /\
     rep (core s') (s_entries (snd (spec_call c (Store (length (core s)) m)))) t' /\ okh s' t' /\
     forall T' r, t' = Some T' -> r ∈ refs T' -> (length (core s) <= fst r)%nat \/ exists T, t = Some T /\ r ∈ refs T;
  se_valid : valid (core s');
  se_len : length (core s') = s_blocks (snd (spec_call c (Store (length (core s)) m))) }.

(** The state after a call that was interrupted. *)
Definition wrecks (c : call) (o : list fault) (a : store) : Prop := spoils c o /\ stored_one (fst (spec_call c a)).
Definition broken (c : call) (s : st) (m : list kvdata) (s' : st) (t : option tree) : Prop :=
  hwf s' /\ (core s' = core s \/ core s' = headed (core s)) /\ (reads_only c -> core s' = core s) /\
  (~ wrecks c (oracle s) (Store (length (core s)) m) -> okh s' t).

(** The parts of a traversal that are below a child. *)
Definition parts (C : list bytes) (t : option tree) (conf : config) (seg : list kvdata) : Prop :=
  exists T l, t = Some T /\ kids_of (kd C) conf T l /\ seg = map (fun x => kd C (fst x)) l.

Definition outcome {BB : Base} (c : call) (s : st) (m : list kvdata) (t : option tree) (r : reply) (s' : st) : Prop :=
  (r = fst (spec_call c (Store (length (core s)) m)) /\ settled c s m t s') \/
  (faulty (oracle s) /\ failed_reply (parts (core s) t) c (oracle s) m r /\ (append_fault (oracle s) \/ core s' = core s) /\ (settled c s m t s' \/ broken c s m s' t)).

Lemma wrote_appends {BB : Base} C t G key value m' s' T' : wrote C t G key value m' s' T' -> appends C G key value (core s') T'.
Proof. intros HW. split_and!; apply HW. Qed.

Lemma bounds_ok_rng conf k : bounds_ok conf -> rng conf k = in_range conf k.
Proof.
  unfold rng. destruct (t_rev conf) eqn:E; [done|]. intros [H|H]; [congruence|].
  unfold in_bounds, in_range. destruct (limit_cmp (t_min conf) k) eqn:E1; [|done|done].
  destruct (t_min conf) as [a| |]; [|done|done]. simpl in E1. apply bytes_cmp_eq in E1. subst a.
  destruct (t_min_incl conf); [|done]. specialize (H eq_refl).
  pose proof (in_range_within (Config NegInf true (t_max conf) (t_max_incl conf) false) (KV 0 k None)) as HH.
  unfold in_range, within in HH. cbn [t_min t_max t_min_incl t_max_incl kv_key limit_cmp above_min] in HH.
  unfold below_max in HH. cbn [t_max t_max_incl] in HH. unfold below_max in H. rewrite H in HH. done.
Qed.

Lemma gappy_suffix K o o' its l b : o' `suffix_of` o -> gappy K o' its l b -> gappy K o its l b.
Proof. intros [k ->] H. induction k as [|f k IH]; [done|]. by constructor. Qed.
Lemma gappy_K (K K' : list kvdata -> Prop) o its l b : (forall x, K x -> K' x) -> gappy K o its l b -> gappy K' o its l b.
Proof. intros HK. induction 1; eauto using gap_nil, gap_ok, gap_pass, gap_key, gap_child, gap_iter. Qed.
Lemma tr_gappy D (K : list (nat * tree) -> Prop) (K' : list kvdata -> Prop) s o' o its l b : (forall x, K x -> K' (map (fun y => D (fst y)) x)) ->
  tr D K s o' o its l b -> gappy K' o (map fst its) (map (fun x => D (fst x)) l) b.
Proof.
  intros HK. induction 1 as [|? q u n its l b Hn H IH|? ? e n seg its l b H1 H2 H IH|? ? e n seg its l b H1 H2 H IH|? e n l H1]; simpl.
  - constructor.
  - by constructor.
  - destruct H1 as (f & o2 & Hs & Hf & Ho). eapply gappy_suffix; [exact Hs|]. rewrite map_app.
    eapply gap_key; [done|by rewrite map_length|]. by eapply gappy_suffix.
  - destruct H1 as (f & o2 & Hs & Hf & Ho). eapply gappy_suffix; [exact Hs|]. rewrite map_app.
    eapply gap_child; [done|by apply HK|]. by eapply gappy_suffix.
  - destruct H1 as (f & o2 & Hs & Hf & Ho). eapply gappy_suffix; [exact Hs|]. by apply gap_iter.
Qed.
Lemma failed_K (K K' : config -> list kvdata -> Prop) c o m r : (forall conf x, K conf x -> K' conf x) -> failed_reply K c o m r -> failed_reply K' c o m r.
Proof.
  intros HK [H|(conf & its & b & H1 & H2 & H)]; [by left|right]. exists conf, its, b. split_and!; [done..|].
  eapply gappy_K; [|exact H]. apply HK.
Qed.

Global Instance is_err_dec x : Decision (is_err x).
Proof. destruct x as [[e|e] n]; [right; intros [? ?]; done|left; by exists e]. Defined.

Section call.
  Context (s : st) (m : list kvdata) (t : option tree).
  Local Notation C := (core s).

  Lemma settled_same {BB : Base} c s' : valid C -> rep C m t -> okh s t -> sext s s' ->
    snd (spec_call c (Store (length C) m)) = Store (length C) m -> effect c C m t C t -> settled c s m t s'.
  Proof.
    intros HV Hr Hok Hx Hc He. pose proof (sx_core _ _ Hx) as Hcore. split; rewrite ?Hc, ?Hcore; try done.
    exists t. split_and!; [done|done|by eapply okh_sext|]. intros T' r -> Hin. right. by exists T'.
  Qed.

  Lemma broken_sext c s' : rep C m t -> okh s t -> sext s s' -> broken c s m s' t.
  Proof.
    intros Hr Hok Hx. pose proof (okh_sext _ _ _ _ Hr Hx Hok) as Hok'. pose proof (sx_core _ _ Hx) as Hcore.
    split_and!; [apply Hok'|by left|done|done].
  Qed.

End call.

(** A program that does what a put is to do, started in [s1] when the call began in [s]. *)
Definition put_triple {BB : Base} (key : bytes) (value : option bytes) (cas : option kvdata -> kvdata -> bool) (s : st) (m : list kvdata) (t : option tree)
    (X : prog (option nat * option nat)) (s1 : st) : Prop :=
  let H := headed (core s) in let e := KV (length H) key value in let old := lookup_key key m in
  forall (Q : option nat * option nat -> st -> Prop) (E : stop -> st -> Prop),
    (cas old e = false -> forall s', core s' = H -> okh s' t -> oracle s' `suffix_of` oracle s -> Q (kv_seq <$> old, None) s') ->
    (cas old e = true -> forall s' T', wrote H t (put_ghost H key t) key value (put_entry e m) s' T' ->
       oracle s' `suffix_of` oracle s -> Q (kv_seq <$> old, Some (length H)) s') ->
    (forall x s', failing x (oracle s) -> intact s s' t -> E (SErr x) s') ->
    (cas old e = true -> forall s', losing (oracle s) -> core s' = H -> hwf s' -> E (SErr EHypercore) s') ->
    (cas old e = true -> forall s' T', losing (oracle s) -> wrote H t (put_ghost H key t) key value (put_entry e m) s' T' -> E (SErr EHypercore) s') ->
    swp X Q E s1.

(** What the two kinds of put do around [tree_put_cas]. *)
Definition put_args (c : call) : option (bytes * option bytes * (option kvdata -> kvdata -> bool)) :=
  match c with
  | CPut k v => Some (k, v, fun _ _ => true)
  | CPutCas k v f => Some (k, v, f)
  | _ => None
  end.
Definition put_call (c : call) (X : prog (option nat * option nat)) : prog reply :=
  match c with
  | CPut _ _ => pbind (pbind X (fun '(old, new) => n <- unwrap new ;; Ret (old, n))) (fun '(old, new) => Ret (RPut old new))
  | _ => pbind X (fun '(old, new) => Ret (RPutCas old new))
  end.
Definition put_api (c : call) (X : prog (option nat * option nat)) : prog reply :=
  pbind (catch (put_call c X)) (fun r => match r with inl x => Ret x | Datatypes.inr e => Ret (RErr e) end).
Lemma put_api_eq fuel c k v f : put_args c = Some (k, v, f) -> api fuel c = put_api c (tree_put_cas fuel k v f).
Proof. destruct c; try done; intros [= <- <- <-]; done. Qed.

Lemma put_wrap {BB : Base} c s m t X s1 k v f : valid (core s) -> rep (core s) m t -> call_ok c -> put_args c = Some (k, v, f) ->
  put_triple k v f s m t X s1 -> swp (put_api c X) (outcome c s m t) (fun _ _ => False) s1.
Proof.
    intros HV Hr Hcok Hargs HX. unfold put_api. apply swp_bind. apply rwp_catch. fold (@swp).
    assert (forall x s', failing x (oracle s) -> losing (oracle s) \/ core s' = core s -> settled c s m t s' \/ broken c s m s' t ->
      swp (Ret (RErr x)) (fun r s' => outcome c s m t r s') (fun _ _ => False) s') as HF.
    { intros x s' H1 H2 H3. apply swp_ret. right. split_and!; [by eapply failing_faulty| |done|done]. left. by exists x. }
    assert (forall r s', r = fst (spec_call c (Store (length (core s)) m)) -> settled c s m t s' ->
      swp (Ret r) (fun r s' => outcome c s m t r s') (fun _ _ => False) s') as HD.
    { intros r s' H1 H2. apply swp_ret. left. done. }
    destruct c as [?|k0 v0|k0 v0 f0|?|? ?| |?|?]; try done; injection Hargs as <- <- <-; rename k0 into k, v0 into v; [|rename f0 into f]; cbn [put_call].
    - apply swp_bind. apply swp_bind. destruct Hcok as [Hk Hv].
      assert (forall s' T', wrote (headed (core s)) t (put_ghost (headed (core s)) k t) k v (put_entry (KV (length (headed (core s))) k v) m) s' T' ->
        settled (CPut k v) s m t s') as Hset.
      { intros s' T' HW. split; [|apply HW|].
        - exists (Some T'). split_and!.
          + exists T'. split; [done|]. by eapply wrote_appends.
          + cbn [spec_call spec_put snd fst s_entries s_blocks]. rewrite <-headed_length. apply HW.
          + apply HW.
          + intros ? r [= <-] Hr'. destruct (wr_refs _ _ _ _ _ _ _ _ HW r Hr') as [H|H]; [left|by right].
            rewrite H, headed_length. unfold with_header. lia.
        - rewrite (wr_core _ _ _ _ _ _ _ _ HW), app_length, headed_length. cbn. lia. }
      apply HX; [done| | | |].
      + intros _ s' T' HW Ho. apply swp_bind. eapply swp_unwrap; [done|]. apply swp_ret. apply swp_ret. apply HD.
        * rewrite headed_length. done.
        * by eapply Hset.
      + intros x s' Hf [H1 H2]. apply HF; [done|destruct H1 as [?|[? _]]; [by right|by left]|]. right. split_and!; [apply H2| |done|done].
        destruct H1 as [?|[_ ?]]; [by left|by right].
      + intros Hcas s' Hf H1 H2. apply HF; [by apply losing_failing|by left|]. right. split_and!; [done|by right|done|].
        intros Hs. by destruct Hs.
      + intros _ s' T' Hf HW. apply HF; [by apply losing_failing|by left|]. left. by eapply Hset.
    - apply swp_bind. destruct Hcok as [Hk Hv].
      assert (f (lookup_key k m) (KV (length (headed (core s))) k v) = true -> forall s' T', wrote (headed (core s)) t (put_ghost (headed (core s)) k t) k v (put_entry (KV (length (headed (core s))) k v) m) s' T' ->
        settled (CPutCas k v f) s m t s') as Hset.
      { intros Hcas s' T' HW. pose proof Hcas as Hcas'. rewrite headed_length in Hcas'. split; [|apply HW|].
        - exists (Some T'). split_and!.
          + unfold effect. rewrite Hcas. exists T'. split; [done|]. by eapply wrote_appends.
          + cbn [spec_call spec_put snd fst s_entries s_blocks]. unfold spec_put. cbn [s_entries s_blocks]. rewrite Hcas'.
            cbn [snd s_entries]. rewrite <-headed_length. apply HW.
          + apply HW.
          + intros ? r [= <-] Hr'. destruct (wr_refs _ _ _ _ _ _ _ _ HW r Hr') as [H|H]; [left|by right].
            rewrite H, headed_length. unfold with_header. lia.
        - rewrite (wr_core _ _ _ _ _ _ _ _ HW), app_length, headed_length. unfold spec_call, spec_put. cbn [s_entries s_blocks]. rewrite Hcas'. cbn. lia. }
      apply HX.
      + intros Hcas s' Hc' Hok' Ho. pose proof Hcas as Hcas'. rewrite headed_length in Hcas'. apply swp_ret. apply HD.
        * unfold spec_call, spec_put. cbn [s_entries s_blocks]. by rewrite Hcas'.
        * split.
          -- exists t. split_and!.
             ++ unfold effect. by rewrite Hcas.
             ++ unfold spec_call, spec_put. cbn [s_entries s_blocks]. rewrite Hcas', Hc'. cbn [snd s_entries].
                destruct (core s) as [|raw C'] eqn:EC; [|done]. destruct t; [destruct Hr as [Hr _]; simpl in Hr; lia|]. simpl. split; [lia|apply Hr].
             ++ done.
             ++ intros T' r -> Hin. right. by exists T'.
          -- rewrite Hc'. by apply headed_valid.
          -- rewrite Hc', headed_length. unfold spec_call, spec_put. cbn [s_entries s_blocks]. by rewrite Hcas'.
      + intros Hcas s' T' HW Ho. pose proof Hcas as Hcas'. rewrite headed_length in Hcas'. apply swp_ret. apply HD.
        * unfold spec_call, spec_put. cbn [s_entries s_blocks]. rewrite Hcas'. by rewrite headed_length.
        * by eapply Hset.
      + intros x s' Hf [H1 H2]. apply HF; [done|destruct H1 as [?|[? _]]; [by right|by left]|]. right. split_and!; [apply H2| |done|done].
        destruct H1 as [?|[_ ?]]; [by left|by right].
      + intros Hcas s' Hf H1 H2. apply HF; [by apply losing_failing|by left|]. right. split_and!; [done|by right|done|].
        intros Hs. destruct Hs. split; [done|]. rewrite headed_length in Hcas. unfold spec_call, spec_put. cbn [s_entries s_blocks]. by rewrite Hcas.
      + intros Hcas s' T' Hf HW. apply HF; [by apply losing_failing|by left|]. left. by eapply Hset.
Qed.

  Lemma call_spec {BB : Base} s m t fuel c :
    valid (core s) -> rep (core s) m t -> okh s t -> chain_small (core s) -> (length (core s) <= fuel)%nat -> call_ok c ->
    swp (api fuel c) (fun r s' => outcome c s m t r s') (fun _ _ => False) s.
  Proof.
    intros HV Hr Hok Hsm Hfuel Hcok. destruct (put_args c) as [[[k0 v0] f0]|] eqn:Ea.
    { rewrite (put_api_eq fuel c k0 v0 f0 Ea). eapply put_wrap; [done|done|done|exact Ea|]. intros Q E HQ0 HQ1 HE0 HE1 HE2.
      assert (u64 (blen k0) /\ match v0 with None => True | Some x => u64 (blen x) end) as [Hk Hv].
      { destruct c; try done; injection Ea as <- <- <-; apply Hcok. }
      by apply (swp_put_cas fuel k0 v0 f0 s m t). }
    unfold api. apply swp_bind. apply rwp_catch. fold (@swp).
    assert (forall x s', failing x (oracle s) -> losing (oracle s) \/ core s' = core s -> settled c s m t s' \/ broken c s m s' t ->
      swp (Ret (RErr x)) (fun r s' => outcome c s m t r s') (fun _ _ => False) s') as HF.
    { intros x s' H1 H2 H3. apply swp_ret. right. split_and!; [by eapply failing_faulty| |done|done]. left. by exists x. }
    assert (forall r s', r = fst (spec_call c (Store (length (core s)) m)) -> settled c s m t s' ->
      swp (Ret r) (fun r s' => outcome c s m t r s') (fun _ _ => False) s') as HD.
    { intros r s' H1 H2. apply swp_ret. left. done. }
    destruct c as [k|k v|k v f|k|k f| |md|conf]; cbn [call_prog].
    - apply swp_bind. eapply swp_tree_get; [exact Hr|exact Hok|done| |].
      + intros s' Hx. apply swp_ret. apply HD; [done|]. by eapply settled_same.
      + intros x s' Hx _ Hf%hit_failing. apply HF; [done|right; apply Hx|]. right. by eapply broken_sext.
    - done.
    - done.
    - apply swp_bind. unfold tree_del. apply swp_bind.
      assert (forall e, lookup_key k m = Some e -> forall s' T', wrote (core s) t (del_ghost (core s) k t) k None (remove_key k m) s' T' ->
        settled (CDel k) s m t s') as Hset.
      { intros e He s' T' HW. split; [|apply HW|].
        - exists (Some T'). split_and!.
          + unfold effect. rewrite He. exists T'. split; [done|]. by eapply wrote_appends.
          + unfold spec_call, spec_del. cbn [s_entries s_blocks]. rewrite He. apply HW.
          + apply HW.
          + intros ? r [= <-] Hr'. destruct (wr_refs _ _ _ _ _ _ _ _ HW r Hr') as [H|H]; [left; lia|by right].
        - rewrite (wr_core _ _ _ _ _ _ _ _ HW), app_length. unfold spec_call, spec_del. cbn [s_entries s_blocks]. rewrite He. cbn. lia. }
      eapply (swp_del_cas fuel k (fun _ => true) s m t); [done|exact Hr|exact Hok|done|done|exact Hcok| |done| | | |].
      + intros He s' Hx. apply swp_ret. apply swp_ret. apply HD.
        * unfold spec_call, spec_del. cbn [s_entries s_blocks]. by rewrite He.
        * eapply settled_same; [done..| |].
          -- unfold spec_call, spec_del. cbn [s_entries s_blocks]. by rewrite He.
          -- unfold effect. by rewrite He.
      + intros e He _ s' T' HW Ho. apply swp_ret. apply swp_ret. apply HD.
        * unfold spec_call, spec_del. cbn [s_entries s_blocks]. by rewrite He.
        * by eapply Hset.
      + intros x s' Hf Hx. apply HF; [done|right; apply Hx|]. right. by eapply broken_sext.
      + intros e He Hcas x s' Hf H1 H2. apply HF; [done|by right|]. right. split_and!; [done|by left|done|].
        intros Hs. destruct Hs. split; [by eapply failing_faulty|]. unfold spec_call, spec_del. cbn [s_entries s_blocks]. by rewrite He, ?Hcas.
      + intros e He _ s' T' Hf HW. apply HF; [by apply losing_failing|by left|]. left. by eapply Hset.
    - apply swp_bind.
      assert (forall e, lookup_key k m = Some e -> f e = true -> forall s' T', wrote (core s) t (del_ghost (core s) k t) k None (remove_key k m) s' T' ->
        settled (CDelCas k f) s m t s') as Hset.
      { intros e He Hcas s' T' HW. split; [|apply HW|].
        - exists (Some T'). split_and!.
          + unfold effect. rewrite He, Hcas. exists T'. split; [done|]. by eapply wrote_appends.
          + unfold spec_call, spec_del. cbn [s_entries s_blocks]. rewrite He, Hcas. apply HW.
          + apply HW.
          + intros ? r [= <-] Hr'. destruct (wr_refs _ _ _ _ _ _ _ _ HW r Hr') as [H|H]; [left; lia|by right].
        - rewrite (wr_core _ _ _ _ _ _ _ _ HW), app_length. unfold spec_call, spec_del. cbn [s_entries s_blocks]. rewrite He, Hcas. cbn. lia. }
      eapply (swp_del_cas fuel k f s m t); [done|exact Hr|exact Hok|done|done|exact Hcok| | | | | |].
      + intros He s' Hx. apply swp_ret. apply HD.
        * unfold spec_call, spec_del. cbn [s_entries s_blocks]. by rewrite He.
        * eapply settled_same; [done..| |].
          -- unfold spec_call, spec_del. cbn [s_entries s_blocks]. by rewrite He.
          -- unfold effect. by rewrite He.
      + intros e He Hcas s' Hx. apply swp_ret. apply HD.
        * unfold spec_call, spec_del. cbn [s_entries s_blocks]. by rewrite He, Hcas.
        * eapply settled_same; [done..| |].
          -- unfold spec_call, spec_del. cbn [s_entries s_blocks]. by rewrite He, Hcas.
          -- unfold effect. by rewrite He, Hcas.
      + intros e He Hcas s' T' HW Ho. apply swp_ret. apply HD.
        * unfold spec_call, spec_del. cbn [s_entries s_blocks]. by rewrite He, Hcas.
        * by eapply Hset.
      + intros x s' Hf Hx. apply HF; [done|right; apply Hx|]. right. by eapply broken_sext.
      + intros e He Hcas x s' Hf H1 H2. apply HF; [done|by right|]. right. split_and!; [done|by left|done|].
        intros Hs. destruct Hs. split; [by eapply failing_faulty|]. unfold spec_call, spec_del. cbn [s_entries s_blocks]. by rewrite He, ?Hcas.
      + intros e He Hcas s' T' Hf HW. apply HF; [by apply losing_failing|by left|]. left. by eapply Hset.
    - apply swp_bind. unfold version. apply swp_core_len. apply swp_ret. apply HD; [done|].
      eapply settled_same; [done..|apply sext_refl|done|done].
    - apply swp_bind. unfold create_header. apply swp_bind. apply swp_core_len.
      destruct (Nat.eqb_spec (length (core s)) 0) as [H0|H0].
      + apply nil_length_inv in H0. destruct t as [T|]; [destruct Hr as [Hr _]; rewrite H0 in Hr; simpl in Hr; lia|].
        destruct Hr as [_ ->]. destruct Hok as [Hw _].
        assert (forall o, settled (CHeader md) s [] None (set_oracle (set_core s (core s ++ [header_block md])) o)) as Hset.
        { intros o. assert (core (set_oracle (set_core s (core s ++ [header_block md])) o) = [header_block md]) as Hc by (by rewrite H0). split.
          - exists None. rewrite Hc. split_and!; [by rewrite H0| | |done].
            + split; [simpl; lia|]. by rewrite H0.
            + split; [|done]. apply hwf_oracle. by apply hwf_append.
          - rewrite Hc. destruct HV as [Hb _]. rewrite H0 in Hb. apply prefix_nil_inv in Hb. unfold valid. rewrite Hb.
            split_and!; [apply prefix_nil| |simpl; lia]. intros _ raw [= <-]. exists md. by split.
          - rewrite Hc, H0. done. }
        assert (forall o, broken (CHeader md) s [] (set_oracle s o) None) as Hbr.
        { intros o. split_and!; [by apply hwf_oracle|by left|done|]. intros _. split; [by apply hwf_oracle|done]. }
        unfold blocks_append. cbn [pbind]. intros s1 <-. split; [done|]. unfold exec_append. destruct (oracle s) as [|f o] eqn:Eo.
        * cbn [pbind]. intros s2 <-. apply swp_ret. specialize (Hset []). apply HD; [by rewrite H0|].
          assert (set_oracle (set_core s (core s ++ [header_block md])) [] = set_core s (core s ++ [header_block md])) as Es.
          { unfold set_oracle, set_core. cbn. by rewrite Eo. }
          rewrite Es in Hset. exact Hset.
        * destruct f; cbn [pbind]; intros s2 <-.
          -- apply swp_ret. apply HD; [by rewrite H0|]. apply Hset.
          -- apply HF; [by left|by right|]. right. apply Hbr.
          -- apply swp_ret. apply HD; [by rewrite H0|]. apply Hset.
          -- apply HF; [by left|left; left; by right|]. left. apply Hset.
          -- apply swp_ret. apply HD; [by rewrite H0|]. apply Hset.
      + intros s2 <-. apply HD.
        * unfold spec_call. cbn [s_blocks]. destruct (Nat.eqb_spec (length (core s)) 0); [lia|done].
        * eapply settled_same; [done..|apply sext_refl| |].
          -- unfold spec_call. cbn [s_blocks]. destruct (Nat.eqb_spec (length (core s)) 0); [lia|done].
          -- split; [done|]. by destruct (core s).
    - apply swp_bind. eapply swp_tree_traverse; [exact Hr|exact Hok|done| | |].
      + intros -> s' Hx. apply HD.
        * destruct Hr as [Hl _]. unfold spec_call. cbn [s_blocks]. destruct (Nat.leb_spec (length (core s)) 1); [done|lia].
        * eapply settled_same; [done..| |done]. unfold spec_call. cbn [s_blocks]. by destruct (length (core s) <=? 1)%nat.
      + intros T its b s' -> Hx Htr. pose proof (tr_faulty _ _ _ _ _ _ _ _ Htr) as Hb. pose proof Hr as (Hl & h & HW & Hm). apply swp_ret.
        assert (settled (CTraverse conf) s m (Some T) s') as Hset.
        { eapply settled_same; [done..| |done]. unfold spec_call. cbn [s_blocks]. by destruct (length (core s) <=? 1)%nat. }
        assert (map (fun x => kd (core s) (fst x)) (expected (kd (core s)) conf T) = range conf m) as He.
        { rewrite Hm. apply expected_gen. intros. by apply bounds_ok_rng. }
        apply swp_ret. destruct (decide (b = true)) as [->|Hb'].
        { right. split_and!; [by apply Hb; left| |right; apply Hx|by left]. right. exists conf, (map fst its), true. split_and!; [done..|].
          rewrite <-He. eapply tr_gappy; [|exact Htr]. intros x Hk. by exists T, x. }
        destruct b; [done|]. destruct (decide (Exists is_err its)) as [Herr|Herr].
        { right. split_and!; [by apply Hb; right| |right; apply Hx|by left]. right. exists conf, (map fst its), false. split_and!; [done..|].
          rewrite <-He. eapply tr_gappy; [|exact Htr]. intros x Hk. by exists T, x. }
        left. split; [|done]. unfold spec_call. cbn [s_blocks fst]. destruct (Nat.leb_spec (length (core s)) 1); [lia|].
        cbn [fst s_entries]. f_equal. rewrite <-He, map_map. by eapply tr_no_err.
      + intros x s' Hx _ Hf%hit_failing. apply HF; [done|right; apply Hx|]. right. by eapply broken_sext.
  Qed.
