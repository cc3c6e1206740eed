(** Ghost trees: the B-tree a node reference stands for. *)
From Coq Require Import Lia.
From stdpp Require Import prelude gmap.
From Verif Require Import Bytes Codec Model Order Store.

Inductive tree := Nd (r : ref) (ks : list nat) (cs : list tree).

Definition tref (t : tree) : ref := let 'Nd r _ _ := t in r.
Definition tkeys (t : tree) : list nat := let 'Nd _ ks _ := t in ks.
Definition tkids (t : tree) : list tree := let 'Nd _ _ cs := t in cs.
Definition node_of (t : tree) : node := Node (tkeys t) (map tref (tkids t)).

Lemma tree_ind' (P : tree -> Prop) :
  (forall r ks cs, Forall P cs -> P (Nd r ks cs)) -> forall t, P t.
Proof.
  intros H. fix IH 1. intros [r ks cs]. apply H.
  induction cs as [|c cs IHcs]; constructor; [apply IH|apply IHcs].
Qed.

(** All subtrees, in preorder. *)
Fixpoint subs (t : tree) : list tree :=
  match t with Nd _ _ cs => t :: concat (map subs cs) end.
Definition refs (t : tree) : list ref := map tref (subs t).

(** Children interleaved with keys. *)
Fixpoint inter {A} (cs : list (list A)) (ks : list A) : list A :=
  match cs, ks with
  | [], _ => ks
  | c :: cs', [] => c ++ concat cs'
  | c :: cs', k :: ks' => c ++ k :: inter cs' ks'
  end.

(** In-order list of keys (as sequence numbers), alone and with the node each
    key is stored in. *)
Fixpoint flat (t : tree) : list nat :=
  match t with Nd _ ks cs => inter (map flat cs) ks end.
Fixpoint flatn (t : tree) : list (nat * tree) :=
  match t with Nd _ ks cs => inter (map flatn cs) (map (fun k => (k, t)) ks) end.

(** [shape h t]: all leaves at depth [h], at most 8 keys, one more child than
    keys, at least 4 keys below the root. *)
Fixpoint shape (h : nat) (t : tree) : Prop :=
  match h, t with
  | 0, Nd _ ks cs => cs = [] /\ (length ks <= 8)%nat
  | S h', Nd _ ks cs =>
      length cs = S (length ks) /\ (length ks <= 8)%nat /\
      Forall (fun c => (4 <= length (tkeys c))%nat /\ shape h' c) cs
  end.

Lemma subs_self t : t ∈ subs t.
Proof. destruct t. simpl. left. Qed.
Lemma subs_kid t c u : c ∈ tkids t -> u ∈ subs c -> u ∈ subs t.
Proof.
  destruct t as [r ks cs]. simpl. intros Hc Hu. right.
  apply elem_of_list_In, in_concat. exists (subs c).
  split; [|by apply elem_of_list_In]. apply in_map. by apply elem_of_list_In.
Qed.
Lemma subs_trans t u v : u ∈ subs t -> v ∈ subs u -> v ∈ subs t.
Proof.
  induction t as [r ks cs IH] using tree_ind'. simpl.
  intros Hu Hv. apply elem_of_cons in Hu as [->|Hu]; [done|].
  apply elem_of_list_In, in_concat in Hu as (l & Hl & Hu).
  apply in_map_iff in Hl as (c & <- & Hc).
  rewrite Forall_forall in IH. apply (subs_kid (Nd r ks cs) c).
  - by apply elem_of_list_In.
  - apply IH; [by apply elem_of_list_In|by apply elem_of_list_In|done].
Qed.
Lemma elem_of_subs r ks cs u :
  u ∈ subs (Nd r ks cs) <-> u = Nd r ks cs \/ exists c, c ∈ cs /\ u ∈ subs c.
Proof.
  simpl. rewrite elem_of_cons, !elem_of_list_In, in_concat. split.
  - intros [->|(l & Hl & Hu)]; [by left|]. right. apply in_map_iff in Hl as (c & <- & Hc).
    exists c. by rewrite !elem_of_list_In.
  - intros [->|(c & Hc & Hu)]; [by left|]. right. exists (subs c).
    rewrite !elem_of_list_In in *. split; [by apply in_map|done].
Qed.
Lemma refs_Nd r ks cs : refs (Nd r ks cs) = r :: concat (map refs cs).
Proof. unfold refs. simpl. by rewrite concat_map, map_map. Qed.
Lemma elem_of_refs x t : x ∈ refs t <-> exists u, u ∈ subs t /\ tref u = x.
Proof. unfold refs. rewrite elem_of_list_fmap. naive_solver. Qed.

(** ** Interleaving *)
Lemma inter_map {A B} (f : A -> B) cs ks :
  map f (inter cs ks) = inter (map (map f) cs) (map f ks).
Proof.
  revert ks. induction cs as [|c cs IH]; intros ks; [done|]. destruct ks as [|k ks]; simpl.
  - by rewrite map_app, concat_map.
  - by rewrite map_app, <-IH.
Qed.

Lemma map_fst_flatn t : map fst (flatn t) = flat t.
Proof.
  induction t as [r ks cs IH] using tree_ind'. simpl. rewrite inter_map, !map_map. simpl.
  rewrite map_id. f_equal. induction IH as [|c cs Hc _ IHcs]; [done|]. simpl. by f_equal.
Qed.

(** Left part (children and keys before a position) and right part. *)
Definition fl {A} (cs : list (list A)) (ks : list A) : list A :=
  concat (zip_with (fun c k => c ++ [k]) cs ks).
Definition fr {A} (ks : list A) (cs : list (list A)) : list A :=
  concat (zip_with (fun k c => k :: c) ks cs).

Lemma inter_fl {A} (csl cs : list (list A)) ksl ks :
  length csl = length ksl -> inter (csl ++ cs) (ksl ++ ks) = fl csl ksl ++ inter cs ks.
Proof.
  revert ksl. induction csl as [|c csl IH]; intros [|k ksl] H; simpl in *; try done.
  injection H as H. unfold fl. simpl. rewrite IH by done. by rewrite <-!app_assoc.
Qed.
Lemma inter_fr {A} (c : list A) cs ks :
  length cs = length ks -> inter (c :: cs) ks = c ++ fr ks cs.
Proof.
  revert c cs. induction ks as [|k ks IH]; intros c [|c' cs] H; simpl in *; try done.
  injection H as H. specialize (IH c' cs H). simpl in IH. unfold fr in *. simpl.
  by rewrite IH.
Qed.
Lemma inter_mid {A} (csl csr : list (list A)) c ksl ksr :
  length csl = length ksl -> length csr = length ksr ->
  inter (csl ++ c :: csr) (ksl ++ ksr) = fl csl ksl ++ c ++ fr ksr csr.
Proof. intros H1 H2. rewrite inter_fl by done. by rewrite inter_fr. Qed.

Lemma inter_nil {A} (ks : list A) : inter [] ks = ks.
Proof. done. Qed.

Lemma elem_of_inter {A} (cs : list (list A)) ks x :
  (cs = [] \/ (length ks < length cs)%nat) ->
  x ∈ inter cs ks <-> x ∈ ks \/ exists c, c ∈ cs /\ x ∈ c.
Proof.
  revert ks. induction cs as [|c cs IH]; intros ks Hlen.
  - simpl. split; [by left|]. intros [H|(c & Hc & _)]; [done|]. by apply elem_of_nil in Hc.
  - destruct Hlen as [|Hlen]; [done|]. destruct ks as [|k ks]; simpl.
    + rewrite elem_of_app. setoid_rewrite elem_of_cons.
      rewrite (elem_of_list_In (concat cs)), in_concat.
      setoid_rewrite elem_of_nil. split.
      * intros [H|(l & Hl & Hx)]; right; [by exists c; auto|].
        exists l. rewrite !elem_of_list_In. auto.
      * intros [[]|(l & [->|Hl] & Hx)]; [by left|]. right. exists l.
        rewrite !elem_of_list_In in *. auto.
    + rewrite elem_of_app. rewrite !elem_of_cons.
      simpl in Hlen. rewrite IH by (right; lia). setoid_rewrite elem_of_cons. naive_solver.
Qed.

(** ** Shape *)
Lemma shape_kids h t c : shape (S h) t -> c ∈ tkids t -> (4 <= length (tkeys c))%nat /\ shape h c.
Proof. destruct t as [r ks cs]. simpl. intros (_ & _ & H) Hc. rewrite Forall_forall in H. auto. Qed.
Lemma shape_leaf t : shape 0 t -> tkids t = [].
Proof. destruct t. simpl. tauto. Qed.
Lemma shape_kids_length h t : shape (S h) t -> length (tkids t) = S (length (tkeys t)).
Proof. destruct t. simpl. tauto. Qed.
Lemma shape_max h t : shape h t -> (length (tkeys t) <= 8)%nat.
Proof. destruct h, t; simpl; tauto. Qed.
Lemma shape_nonleaf h t : shape (S h) t -> tkids t <> [].
Proof. intros H Hn. apply shape_kids_length in H. rewrite Hn in H. done. Qed.
Lemma shape_arity h t : shape h t -> tkids t = [] \/ (length (tkeys t) < length (tkids t))%nat.
Proof.
  destruct h; intros H; [left; by apply shape_leaf|right]. apply shape_kids_length in H. lia.
Qed.
Lemma shape_sub h t u : shape h t -> u ∈ subs t -> exists h', (h' <= h)%nat /\ shape h' u.
Proof.
  revert t. induction h as [|h IH]; intros [r ks cs] Hs Hu.
  - exists 0. destruct Hs as [-> H]. simpl in Hu. apply elem_of_list_singleton in Hu as ->. done.
  - apply elem_of_subs in Hu as [->|(c & Hc & Hu)]; [by exists (S h)|].
    destruct (shape_kids _ _ c Hs Hc) as [_ Hsc]. destruct (IH c Hsc Hu) as (h' & H1 & H2).
    exists h'. split; [lia|done].
Qed.

Lemma flat_Nd r ks cs : flat (Nd r ks cs) = inter (map flat cs) ks.
Proof. done. Qed.

Lemma elem_of_flat_keys h t k : shape h t -> k ∈ tkeys t -> k ∈ flat t.
Proof.
  destruct t as [r ks cs]. intros Hs Hk. simpl. apply elem_of_inter; [|by left].
  rewrite map_length. destruct (shape_arity _ _ Hs) as [H|H]; simpl in H; [left; by rewrite H|by right].
Qed.

Lemma elem_of_flat_sub h t k : shape h t -> k ∈ flat t <-> exists u, u ∈ subs t /\ k ∈ tkeys u.
Proof.
  revert h. induction t as [r ks cs IH] using tree_ind'. intros h Hs.
  rewrite flat_Nd, elem_of_inter.
  2:{ rewrite map_length. destruct (shape_arity _ _ Hs) as [H|H]; simpl in H; [left; by rewrite H|by right]. }
  rewrite Forall_forall in IH. setoid_rewrite elem_of_subs. split.
  - intros [Hk|(l & Hl & Hk)]; [exists (Nd r ks cs); auto|].
    apply elem_of_list_fmap in Hl as (c & -> & Hc).
    destruct h as [|h]; [destruct Hs as [-> _]; by apply elem_of_nil in Hc|].
    destruct (shape_kids _ _ c Hs Hc) as [_ Hsc].
    apply (IH c Hc h Hsc) in Hk as (u & Hu & Hk). exists u. split; [|done]. right. eauto.
  - intros (u & [->|(c & Hc & Hu)] & Hk); [by left|]. right.
    destruct h as [|h]; [destruct Hs as [-> _]; by apply elem_of_nil in Hc|].
    destruct (shape_kids _ _ c Hs Hc) as [_ Hsc].
    exists (flat c). split; [apply elem_of_list_fmap; eauto|]. apply (IH c Hc h Hsc). eauto.
Qed.
