(** Deletion with a check that stops where a node would be merged with itself; used to
    show that this does not happen in the stores the library writes. *)
From Coq.Strings Require Import Byte.
From Coq Require Import Lia.
From stdpp Require Import prelude gmap.
From Verif Require Import Bytes Codec Model Wp Spec Client.

(** [p] with checks: where it does not panic it is [p']. *)
Inductive checks {A} : prog A -> prog A -> Prop :=
| ck_ret a : checks (Ret a) (Ret a)
| ck_stop x : checks (Stop x) (Stop x)
| ck_cut p : checks (Stop SPanic) p
| ck_len k k' : (forall v, checks (k v) (k' v)) -> checks (CoreLen k) (CoreLen k')
| ck_get q k k' : (forall v, checks (k v) (k' v)) -> checks (CoreGet q k) (CoreGet q k')
| ck_append b k k' : (forall v, checks (k v) (k' v)) -> checks (CoreAppend b k) (CoreAppend b k')
| ck_cget q k k' : (forall v, checks (k v) (k' v)) -> checks (CacheGet q k) (CacheGet q k')
| ck_cput q e k k' : checks k k' -> checks (CachePut q e k) (CachePut q e k')
| ck_new nd k k' : (forall v, checks (k v) (k' v)) -> checks (NodeNew nd k) (NodeNew nd k')
| ck_nget n k k' : (forall v, checks (k v) (k' v)) -> checks (NodeGet n k) (NodeGet n k')
| ck_nupd n f k k' : (forall v, checks (k v) (k' v)) -> checks (NodeUpd n f k) (NodeUpd n f k').

Lemma ck_refl {A} (p : prog A) : checks p p.
Proof. induction p; constructor; auto. Qed.
Lemma ck_bind {A B} (p p' : prog A) (f f' : A -> prog B) : checks p p' -> (forall a, checks (f a) (f' a)) -> checks (pbind p f) (pbind p' f').
Proof. intros Hp Hf. induction Hp; cbn; try by constructor. apply Hf. Qed.
Lemma ck_catch {A} (p p' : prog A) : checks p p' -> checks (catch p) (catch p').
Proof. intros Hp. induction Hp; cbn; try by constructor. destruct x; constructor. Qed.
Lemma ck_run {A} (p p' : prog A) : checks p p' -> forall s, fst (run p s) <> Datatypes.inr SPanic -> run p' s = run p s.
Proof.
  intros Hp. induction Hp; intros s Hr; cbn in *; try done; auto.
  - destruct (exec_get q s); auto.
  - destruct (exec_append b s); auto.
  - destruct (heap s !! n); auto.
  - destruct (heap s !! n); auto. destruct (f n0); auto.
Qed.

Lemma ck_rwp {A} (p p' : prog A) : checks p p' -> forall (Q : A -> st -> Prop) (E : stop -> st -> Prop) s,
  rwp eq (fun _ _ => True) p Q (fun x s' => E x s' /\ x <> SPanic) s -> rwp eq (fun _ _ => True) p' Q E s.
Proof.
  intros Hp. induction Hp; intros Q E s HW; cbn in *;
    try (intros s1 <-; specialize (HW s eq_refl); try done; try (by apply HW); try (destruct HW; split; auto); auto; fail).
  - exfalso. destruct (HW s eq_refl). done.
  - intros s1 <- js. specialize (HW s eq_refl js). destruct HW. split; auto.
  - intros s1 <-. specialize (HW s eq_refl). destruct (heap s !! n); auto. by destruct HW.
  - intros s1 <-. specialize (HW s eq_refl). destruct (heap s !! n); [|by destruct HW]. destruct (f n0); [|by destruct HW]. destruct HW. split; auto.
Qed.

(** [maybe_merge] (del.rs:234-285), with the check. *)
Definition maybe_merge_g (sd : side) (father : nid) (di : nat) (dc : nid) (ch : changes)
    : prog (option changes) :=
  d <- get_donor_index sd father di ;;
  match d with
  | None => Ret None
  | Some donor_index =>
      donor <- get_child father donor_index ;;
      if bool_decide (donor = dc) then panic else
      let '(l, r) := match sd with SRight => (dc, donor) | SLeft => (donor, dc) end in
      fk <- node_mod father (on_keys (vec_remove (get_key_index sd di))) ;;
      let rci := match sd with SRight => (di + 1)%nat | SLeft => di end in
      node_mod father (on_children (fun cs => only (vec_splice rci (rci + 1) [] cs))) ;;
      nl <- num_keys l ;;
      rk <- node_mod r (on_keys (fun ks => Some (ks, []))) ;;
      node_mod l (on_keys (fun ks => only (vec_splice nl nl (fk :: rk) ks))) ;;
      nlc <- num_children l ;;
      rc <- node_mod r (on_children (fun cs => Some (cs, []))) ;;
      node_mod l (on_children (fun cs => only (vec_splice nlc nlc rc cs))) ;;
      let '(lr, ch') := add_node l ch in
      node_mod father (on_children (fun cs => only (vec_splice (rci - 1) rci [lr] cs))) ;;
      Ret (Some ch')
  end.

(** [repair_one] (del.rs:288-356), [repair] (del.rs:357-405), [del_compare_and_swap]
    (del.rs:412-477), [del] (del.rs:479-487) with that. *)
Definition repair_one_g (father : nid) (di : nat) (dc : nid) (order : nat) (ch : changes) : prog changes :=
  r1 <- maybe_rotate SLeft father di dc order ch ;;
  match r1 with Some ch' => Ret ch' | None =>
  r2 <- maybe_rotate SRight father di dc order ch ;;
  match r2 with Some ch' => Ret ch' | None =>
  r3 <- maybe_merge_g SLeft father di dc ch ;;
  match r3 with Some ch' => Ret ch' | None =>
  r4 <- maybe_merge_g SRight father di dc ch ;;
  match r4 with Some ch' => Ret ch' | None => panic
  end end end end.
Fixpoint repair_loop_g (p : path) (father : nid) (di : nat) (dc : nid) (order : nat) (ch : changes)
    : prog (ref * path * changes) :=
  ch' <- repair_one_g father di dc order ch ;;
  nk <- num_keys father ;;
  nc <- num_children father ;;
  match p with
  | [] =>
      if (nk =? 0)%nat && (nc =? 1)%nat then
        nd <- node_get father ;;
        r <- unwrap (n_children nd !! 0) ;;
        Ret (r, [], ch')
      else
        let '(r, ch'') := add_node father ch' in Ret (r, [], ch'')
  | (n, i) :: p' =>
      if (min_keys order <=? nk)%nat then
        let '(r, ch'') := add_node father ch' in Ret (r, p, ch'')
      else repair_loop_g p' n i father order ch'
  end.
Definition repair_g (p : path) (order : nat) (ch : changes) : prog (ref * path * changes) :=
  match p with
  | [] => panic
  | (father, di) :: p' =>
      dc <- get_child father di ;;
      repair_loop_g p' father di dc order ch
  end.
Definition tree_del_cas_g (fuel : nat) (key : bytes) (cas : kvdata -> bool) : prog (option (bool * nat)) :=
  r <- get_root false ;;
  match r with
  | None => Ret None
  | Some root =>
      '(matched, p) <- nearest_node fuel root (Finite key) ;;
      match matched with
      | None => Ret None
      | Some seq =>
          '(n, i) <- unwrap (head p) ;;
          kv <- get_key_value n i ;;
          if cas kv then
            v <- version ;;
            let ch := Changes v key None [] in
            '(cur, ci) <- unwrap (head p) ;;
            let p1 := tail p in
            node_mod cur (on_keys (vec_remove ci)) ;;
            leaf <- is_leaf cur ;;
            p2 <- (if (leaf : bool) then Ret ((cur, ci) :: p1)
                   else replace_removed fuel p1 cur ci) ;;
            '(bottom, _) <- unwrap (head p2) ;;
            let p3 := tail p2 in
            nk <- num_keys bottom ;;
            '(child, p4, ch') <-
              (if negb (bool_decide (p3 = [])) && (nk <? min_keys MAX_KEYS)%nat
               then repair_g p3 MAX_KEYS ch
               else let '(r, ch1) := add_node bottom ch in Ret (r, p3, ch1)) ;;
            ch'' <- propagate ch' p4 child ;;
            add_changes ch'' ;;
            Ret (Some (true, seq))
          else Ret (Some (false, seq))
      end
  end.
Definition tree_del_g (fuel : nat) (key : bytes) : prog (option nat) :=
  r <- tree_del_cas_g fuel key (fun _ => true) ;;
  match r with
  | None => Ret None
  | Some (true, seq) => Ret (Some seq)
  | Some (false, _) => panic
  end.

Lemma ck_maybe_merge sd f di dc ch : checks (maybe_merge_g sd f di dc ch) (maybe_merge sd f di dc ch).
Proof.
  apply ck_bind; [apply ck_refl|intros [x|]]; [|apply ck_refl]. apply ck_bind; [apply ck_refl|intros d].
  destruct (bool_decide (d = dc)); [apply ck_cut|apply ck_refl].
Qed.
Lemma ck_repair_one f di dc order ch : checks (repair_one_g f di dc order ch) (repair_one f di dc order ch).
Proof.
  repeat (apply ck_bind; [first [apply ck_maybe_merge|apply ck_refl]|intros [x|]; [apply ck_refl|]]). apply ck_refl.
Qed.
Lemma ck_repair_loop order p : forall f di dc ch, checks (repair_loop_g p f di dc order ch) (repair_loop p f di dc order ch).
Proof.
  induction p as [|[n i] p IH]; intros f di dc ch; cbn [repair_loop_g repair_loop]; (apply ck_bind; [apply ck_repair_one|intros ch']);
    [apply ck_refl|]. do 2 (apply ck_bind; [apply ck_refl|intros ?]). destruct (_ <=? _)%nat; [apply ck_refl|apply IH].
Qed.
Lemma ck_repair p order ch : checks (repair_g p order ch) (repair p order ch).
Proof. destruct p as [|[f di] p]; [apply ck_refl|]. apply ck_bind; [apply ck_refl|intros dc; apply ck_repair_loop]. Qed.
Lemma ck_del_cas fuel key cas : checks (tree_del_cas_g fuel key cas) (tree_del_cas fuel key cas).
Proof.
  unfold tree_del_cas_g, tree_del_cas. apply ck_bind; [apply ck_refl|intros [root|]]; [|apply ck_refl].
  apply ck_bind; [apply ck_refl|intros [[q|] p]]; [|apply ck_refl]. apply ck_bind; [apply ck_refl|intros [n i]].
  apply ck_bind; [apply ck_refl|intros kv]. destruct (cas kv); [|apply ck_refl].
  apply ck_bind; [apply ck_refl|intros v]. cbv zeta. apply ck_bind; [apply ck_refl|intros [cur ci]].
  do 3 (apply ck_bind; [apply ck_refl|intros ?]). apply ck_bind; [apply ck_refl|intros [b ?]]. apply ck_bind; [apply ck_refl|intros nk].
  apply ck_bind; [|intros ?; apply ck_refl]. destruct (_ && _); [apply ck_repair|apply ck_refl].
Qed.

(** What a handle runs, with the check. *)
Definition api_g (fuel : nat) (c : call) : prog reply :=
  match c with
  | CDel k => x <- catch (r <- tree_del_g fuel k ;; Ret (RDel r)) ;; match x with Datatypes.inl r => Ret r | Datatypes.inr e => Ret (RErr e) end
  | CDelCas k f => x <- catch (r <- tree_del_cas_g fuel k f ;; Ret (RDelCas r)) ;; match x with Datatypes.inl r => Ret r | Datatypes.inr e => Ret (RErr e) end
  | _ => api fuel c
  end.
