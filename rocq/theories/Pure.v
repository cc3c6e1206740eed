(** Insertion and deletion on ghost trees, step by step as the code does them,
    and what they do to the contents, the shape and the references.

    [q] is the sequence number of the block being built, [len] the number of
    nodes added to it so far.  A node that has been added has reference
    [(q, position)]. *)
From Coq.Strings Require Import Byte.
From Coq Require Import Lia Sorting.Sorted.
From stdpp Require Import prelude gmap.
From Verif Require Import Bytes Codec Model Order Store Tree Iter Read Zip.

Definition news (q len len' : nat) : list ref := map (pair q) (seq len (len' - len)).

Lemma news_nil q a : news q a a = [].
Proof. unfold news. by rewrite Nat.sub_diag. Qed.
Lemma news_S q a b : (a < b)%nat -> news q a b = (q, a) :: news q (S a) b.
Proof. intros H. unfold news. by replace (b - a)%nat with (S (b - S a)) by lia. Qed.
Lemma news_app q a b c : (a <= b <= c)%nat -> news q a c = news q a b ++ news q b c.
Proof.
  intros H. unfold news. rewrite <-map_app. f_equal.
  replace (c - a)%nat with ((b - a) + (c - b))%nat by lia. rewrite seq_app.
  by replace (a + (b - a))%nat with b by lia.
Qed.
Lemma elem_of_news q a b r : r ∈ news q a b <-> fst r = q /\ (a <= snd r < b)%nat.
Proof.
  unfold news. rewrite elem_of_list_fmap. setoid_rewrite elem_of_seq. destruct r as [x y]. simpl.
  split; [intros (z & [= -> ->] & H); split; [done|lia]|]. intros [-> H]. exists y. split; [done|lia].
Qed.
Lemma NoDup_news q a b : NoDup (news q a b).
Proof. unfold news. apply NoDup_fmap_2; [by intros ?? [= ->]|apply NoDup_seq]. Qed.

(** ** Propagation *)
Fixpoint pprop (q len : nat) (tp : zipper) (t : tree) : tree * nat :=
  match tp with
  | [] => (t, len)
  | (u, i) :: tp' => pprop q (S len) tp' (Nd (q, len) (tkeys u) (<[i := t]> (tkids u)))
  end.

(** What the result of an update is. *)
Record good (q h : nat) (F : list nat) (rs : list ref) (len : nat) (T : tree) (len' : nat) : Prop := {
  g_flat : flat T = F;
  g_shape : rshape h T;
  g_tref : tref T = (q, len' - 1);
  g_len : (len < len')%nat;
  g_refs : refs T ≡ₚ rs ++ news q len len' }.

Lemma insert_kids {A} (l : list A) i x : (i < length l)%nat -> <[i := x]> l = take i l ++ x :: drop (S i) l.
Proof. intros H. by apply insert_take_drop. Qed.

Lemma concat_map_insert {B} (f : tree -> list B) (l : list tree) i x :
  (i < length l)%nat ->
  concat (map f (<[i := x]> l)) ≡ₚ f x ++ concat (map f (take i l)) ++ concat (map f (drop (S i) l)).
Proof.
  intros H. rewrite insert_kids by done. rewrite map_app, concat_app. simpl. solve_Permutation.
Qed.

(** Plugging a child into a frame. *)
Lemma frame_flat u i t :
  length (tkids u) = S (length (tkeys u)) -> (i <= length (tkeys u))%nat -> forall r,
  flat (Nd r (tkeys u) (<[i := t]> (tkids u))) =
  fl (map flat (take i (tkids u))) (take i (tkeys u)) ++ flat t ++ fr (drop i (tkeys u)) (map flat (drop (S i) (tkids u))).
Proof.
  intros Hl Hi r. simpl. rewrite insert_kids by lia. rewrite map_app. simpl.
  rewrite <-(take_drop i (tkeys u)) at 1. apply inter_mid.
  - rewrite map_length, !take_length. lia.
  - rewrite map_length, !drop_length. lia.
Qed.

Lemma frame_shape u i t g r :
  length (tkids u) = S (length (tkeys u)) -> (length (tkeys u) <= 8)%nat -> (i <= length (tkeys u))%nat ->
  Forall (okkid g) (take i (tkids u)) -> Forall (okkid g) (drop (S i) (tkids u)) -> okkid g t ->
  shape (S g) (Nd r (tkeys u) (<[i := t]> (tkids u))).
Proof.
  intros Hl H8 Hi F1 F2 Ht. simpl. rewrite insert_length. split_and!; [done|done|].
  rewrite insert_kids by lia. apply Forall_app. split; [done|]. by constructor.
Qed.

Lemma pprop_good q tp : forall g lo t len T len' ,
  pprop q len tp t = (T, len') ->
  zok g lo tp -> (1 <= lo)%nat -> shape g t ->
  (match tp with [] => rshape g t | _ => 4 <= length (tkeys t) end)%nat ->
  tref t = (q, len - 1) -> (0 < len)%nat ->
  flat T = ctx_l tp ++ flat t ++ ctx_r tp /\ rshape (length tp + g) T /\ tref T = (q, len' - 1) /\
  (len' = len + length tp)%nat /\ refs T ≡ₚ refs t ++ sibs tp ++ news q len len'.
Proof.
  induction tp as [|[u i] tp IH]; intros g lo t len T len' Hp Hz Hlo Hs Hk Hr Hlen; cbn [pprop] in Hp.
  - injection Hp as <- <-. cbn [ctx_l ctx_r sibs length]. rewrite news_nil, !app_nil_r. split_and!; try done; lia.
  - cbn [zok] in Hz. destruct Hz as (Hl & H8 & H4 & Hi & F1 & F2 & Hz).
    edestruct (IH (S g) lo _ _ _ _ Hp) as (E1 & E2 & E3 & E4 & E5); [done|done| | | |lia|].
    + by apply frame_shape.
    + destruct tp as [|x tp].
      * split; [by apply frame_shape|]. right. simpl. intros He. rewrite He in H4. simpl in H4. lia.
      * done.
    + simpl. f_equal. lia.
    + rewrite frame_flat in E1 by done. cbn [ctx_l ctx_r sibs length]. split_and!.
      * rewrite E1. by rewrite <-!app_assoc.
      * by replace (S (length tp) + g)%nat with (length tp + S g)%nat by lia.
      * done.
      * lia.
      * rewrite E5, refs_Nd, concat_map_insert by lia. rewrite (news_S q len) by lia. solve_Permutation.
Qed.

(** ** Insertion *)
Definition ins_keys (m : bool) (i k : nat) (ks : list nat) : list nat :=
  take i ks ++ k :: drop (if m then S i else i) ks.
Definition ins_kids (i : nat) (cs kids : list tree) : list tree :=
  match cs with [] => kids | _ => take i kids ++ cs ++ drop (S i) kids end.

Fixpoint pput (q len : nat) (m : bool) (k : nat) (cs : list tree) (tp : zipper) : tree * nat :=
  match tp with
  | [] => (Nd (q, len) [k] cs, S len)
  | (u, i) :: tp' =>
      let ks := ins_keys m i k (tkeys u) in
      let kids := ins_kids i cs (tkids u) in
      if m || (length (tkeys u) <? 8)%nat then pprop q (S len) tp' (Nd (q, len) ks kids)
      else
        let km := Nat.div2 (length ks) in
        let cm := Nat.div2 (length kids) in
        match drop km ks with
        | [] => (u, len)
        | mid :: rk =>
            pput q (S (S len)) m mid
              [Nd (q, len) (take km ks) (take cm kids); Nd (q, S len) rk (drop cm kids)] tp'
        end
  end.

Lemma good_refs q h F rs rs' len T len' : rs ≡ₚ rs' -> good q h F rs len T len' -> good q h F rs' len T len'.
Proof. intros Hp [H1 H2 H3 H4 H5]. split; try done. by rewrite H5, Hp. Qed.

Lemma pprop_done q tp g t len T len' rs :
  pprop q (S len) tp t = (T, len') ->
  zok g 1 tp -> shape g t -> (match tp with [] => rshape g t | _ => 4 <= length (tkeys t) end)%nat ->
  tref t = (q, len) -> concat (map refs (tkids t)) ++ sibs tp ≡ₚ rs ->
  good q (length tp + g) (ctx_l tp ++ flat t ++ ctx_r tp) rs len T len' /\ (len' = len + 1 + length tp)%nat.
Proof.
  intros Hp Hz Hs Hk Hr Hrs.
  destruct (pprop_good q tp g 1 t (S len) T len' Hp Hz) as (E1 & E2 & E3 & E4 & E5); [lia|done|done| |lia|].
  - rewrite Hr. f_equal. lia.
  - split; [|lia]. split; try done; [lia|]. rewrite E5, <-Hrs, refs_kids, Hr, (news_S q len) by lia.
    solve_Permutation.
Qed.

Lemma pput_split q tp : forall g k l r len T len',
  pput q len false k [l; r] tp = (T, len') -> zok g 1 tp -> okkid g l -> okkid g r ->
  (exists h, (h = length tp + g \/ h = S (length tp + g))%nat /\
   good q h (ctx_l tp ++ flat l ++ k :: flat r ++ ctx_r tp) (refs l ++ refs r ++ sibs tp) len T len') /\
  (len' <= len + 2 * length tp + 1)%nat.
Proof.
  induction tp as [|[u i] tp IH]; intros g k l r len T len' Hp Hz Hl Hr.
  - cbn [pput] in Hp. injection Hp as <- <-. cbn [length]. split; [|lia]. exists (S g). split; [by right|].
    split.
    + simpl. by rewrite !app_nil_r.
    + split; [|by right]. simpl. split_and!; [done|lia|]. repeat constructor; by apply Hl || apply Hr.
    + simpl. f_equal. lia.
    + lia.
    + rewrite refs_Nd, (news_S q len), news_nil by lia. simpl. rewrite !app_nil_r. solve_Permutation.
  - cbn [zok] in Hz. destruct Hz as (Hlk & H8 & H4 & Hi & F1 & F2 & Hz).
    cbn [pput] in Hp. cbn [orb] in Hp. cbn [ctx_l ctx_r sibs length].
    set (ks := ins_keys false i k (tkeys u)) in *. set (kids := ins_kids i [l; r] (tkids u)) in *.
    assert (length ks = S (length (tkeys u))) as Hks.
    { unfold ks, ins_keys. rewrite app_length. simpl. rewrite take_length, drop_length. lia. }
    assert (length kids = S (length ks)) as Hkids.
    { unfold kids, ins_kids. rewrite !app_length. simpl. rewrite take_length, drop_length. lia. }
    assert (Forall (okkid g) kids) as HF.
    { unfold kids, ins_kids. apply Forall_app. split; [done|]. by do 2 (apply Forall_cons; split; [done|]). }
    assert (concat (map refs kids) ≡ₚ refs l ++ refs r ++ concat (map refs (take i (tkids u))) ++ concat (map refs (drop (S i) (tkids u)))) as Hrf.
    { unfold kids, ins_kids. rewrite !map_app, !concat_app. simpl. rewrite app_nil_r. solve_Permutation. }
    assert (inter (map flat kids) ks = fl (map flat (take i (tkids u))) (take i (tkeys u)) ++
      flat l ++ k :: flat r ++ fr (drop i (tkeys u)) (map flat (drop (S i) (tkids u)))) as Hfl.
    { unfold kids, ks, ins_kids, ins_keys. rewrite map_app. cbn [map app].
      rewrite inter_mid.
      - unfold fr at 1. cbn [zip_with concat]. fold (fr (drop i (tkeys u)) (map flat (drop (S i) (tkids u)))).
        by rewrite <-?app_assoc.
      - rewrite map_length, !take_length. lia.
      - simpl. rewrite map_length, !drop_length. lia. }
    destruct (Nat.ltb_spec (length (tkeys u)) 8) as [Hlt|Hge].
    + edestruct (pprop_done q tp (S g) _ len T len' (refs l ++ refs r ++ sibs ((u, i) :: tp)) Hp Hz) as [HG HL].
      * simpl. split_and!; [done|lia|done].
      * destruct tp as [|x tp]; [|simpl; lia]. split; [simpl; split_and!; [done|lia|done]|]. right. simpl.
        intros He. rewrite He in Hks. done.
      * done.
      * cbn [tkids sibs]. rewrite Hrf. solve_Permutation.
      * split; [|simpl; lia]. exists (length tp + S g)%nat. split; [simpl; lia|].
        rewrite flat_Nd, Hfl in HG. rewrite <-!app_assoc. rewrite <-?app_assoc in HG. cbn [app] in HG.
        rewrite <-?app_assoc in HG. done.
    + assert (length (tkeys u) = 8) as E8 by lia. rewrite E8 in Hks. rewrite Hks in Hkids, Hp. rewrite Hkids in Hp.
      cbn [Nat.div2] in Hp.
      destruct (drop 4 ks) as [|mid rk] eqn:Ed.
      { assert (length (drop 4 ks) = 0) as E by (by rewrite Ed). rewrite drop_length in E. lia. }
      assert (ks !! 4 = Some mid) as Hmid.
      { replace 4 with (4 + 0) by done. rewrite <-lookup_drop, Ed. done. }
      assert (drop 5 ks = rk) as Hrk.
      { change 5 with (1 + 4)%nat. replace (1 + 4)%nat with (4 + 1)%nat by done. rewrite <-drop_drop, Ed. done. }
      subst rk.
      edestruct (IH (S g) _ _ _ _ _ _ Hp Hz) as [(h & Hh & HG) HL].
      * split; [simpl; rewrite take_length; lia|]. simpl. split_and!; [rewrite !take_length; lia|rewrite take_length; lia|].
        by apply Forall_take.
      * split; [simpl; rewrite drop_length; lia|]. simpl. split_and!; [rewrite !drop_length; lia|rewrite drop_length; lia|].
        by apply Forall_drop.
      * split; [|lia]. exists h. split; [lia|]. destruct HG as [G1 G2 G3 G4 G5]. split; try done; [|lia|].
        -- rewrite G1. rewrite !flat_Nd, <-firstn_map, <-skipn_map.
           transitivity (ctx_l tp ++ inter (map flat kids) ks ++ ctx_r tp).
           ++ rewrite (inter_key (map flat kids) ks 4 mid); [by rewrite <-!app_assoc|right; rewrite map_length; lia|done].
           ++ rewrite Hfl. rewrite <-!app_assoc. do 3 f_equal. cbn [app]. f_equal. by rewrite <-app_assoc.
        -- rewrite G5, (news_S q len), (news_S q (S len)) by lia. rewrite !refs_Nd.
           rewrite <-(take_drop 5 kids), map_app, concat_app in Hrf.
           match goal with |- ?L ≡ₚ ?R => transitivity ((concat (map refs (take 5 kids)) ++ concat (map refs (drop 5 kids))) ++
             (q, len) :: (q, S len) :: sibs tp ++ news q (S (S len)) len') end; [solve_Permutation|].
           rewrite Hrf. solve_Permutation.
Qed.

Lemma pput_leaf q tp b i k len T len' :
  pput q len false k [] ((b, i) :: tp) = (T, len') ->
  shape 0 b -> (i <= length (tkeys b))%nat -> zok 0 1 tp -> (tp <> [] -> 4 <= length (tkeys b))%nat ->
  (exists h, (h = length tp \/ h = S (length tp))%nat /\
   good q h (ctx_l tp ++ (take i (tkeys b) ++ k :: drop i (tkeys b)) ++ ctx_r tp) (sibs tp) len T len') /\
  (len' <= len + 2 * length tp + 3)%nat.
Proof.
  intros Hp Hs Hi Hz H4. destruct b as [rb ksb csb]. destruct Hs as [-> H8].
  cbn [pput tkeys tkids ins_kids orb ins_keys] in *. unfold ins_keys in Hp.
  set (ks := take i ksb ++ k :: drop i ksb) in *.
  assert (length ks = S (length ksb)) as Hks.
  { unfold ks. rewrite app_length. simpl. rewrite take_length, drop_length. lia. }
  destruct (Nat.ltb_spec (length ksb) 8) as [Hlt|Hge].
  - edestruct (pprop_done q tp 0 _ len T len' (sibs tp) Hp Hz) as [HG HL].
    + simpl. split; [done|lia].
    + destruct tp as [|x tp]; [split; [simpl; split; [done|lia]|by left]|]. simpl. specialize (H4 ltac:(done)). lia.
    + done.
    + done.
    + split; [|lia]. exists (length tp + 0)%nat. split; [lia|]. by rewrite flat_Nd in HG.
  - assert (length ksb = 8) as E8 by lia. rewrite E8 in Hks. rewrite Hks in Hp. cbn [Nat.div2 length] in Hp.
    destruct (drop 4 ks) as [|mid rk] eqn:Ed.
    { assert (length (drop 4 ks) = 0) as E by (by rewrite Ed). rewrite drop_length in E. lia. }
    assert (length rk = 4) as Hrk.
    { assert (length (drop 4 ks) = S (length rk)) as E by (by rewrite Ed). rewrite drop_length in E. lia. }
    edestruct (pput_split q tp 0 _ _ _ _ _ _ Hp Hz) as [(h & Hh & HG) HL].
    + split; [simpl; rewrite take_length; lia|]. simpl. split; [done|]. rewrite take_length. lia.
    + split; [simpl; lia|]. simpl. split; [done|lia].
    + split; [|lia]. exists h. split; [lia|]. destruct HG as [G1 G2 G3 G4 G5]. split; try done; [|lia|].
      * rewrite G1. rewrite <-(take_drop 4 ks) at 2. rewrite Ed. rewrite !flat_Nd. simpl. by rewrite <-!app_assoc.
      * rewrite G5, (news_S q len), (news_S q (S len)) by lia. rewrite !refs_Nd. simpl. solve_Permutation.
Qed.

Lemma pput_match q tp g b i q0 k len T len' :
  pput q len true k [] ((b, i) :: tp) = (T, len') ->
  shape g b -> tkeys b !! i = Some q0 -> zok g 1 tp -> (tp <> [] -> 4 <= length (tkeys b))%nat ->
  good q (length tp + g) (ctx_l tp ++ (kl b i ++ k :: kr b i) ++ ctx_r tp)
    (concat (map refs (tkids b)) ++ sibs tp) len T len' /\
  (len' = len + 1 + length tp)%nat.
Proof.
  intros Hp Hs Hi Hz H4. cbn [pput tkeys tkids ins_kids orb ins_keys] in *. unfold ins_keys in Hp.
  pose proof (lookup_lt_Some _ _ _ Hi) as Hlt.
  rewrite <-insert_take_drop in Hp by done.
  assert (forall r, shape g (Nd r (<[i := k]> (tkeys b)) (tkids b))) as Hs'.
  { intros r. destruct b as [rb ksb csb], g; simpl in *; rewrite insert_length; done. }
  edestruct (pprop_done q tp g _ len T len' (concat (map refs (tkids b)) ++ sibs tp) Hp Hz) as [HG HL].
  - apply Hs'.
  - destruct tp as [|x tp]; [split; [apply Hs'|right]|].
    + simpl. intros He. apply (f_equal length) in He. rewrite insert_length in He. simpl in He. lia.
    + simpl. rewrite insert_length. by apply H4.
  - done.
  - done.
  - split; [|done]. erewrite flat_key in HG; [|apply Hs'|simpl; by apply list_lookup_insert].
    unfold kl, kr in *. cbn [tkids tkeys] in HG. rewrite take_insert, drop_insert_gt in HG by lia. done.
Qed.

(** ** Deletion: repair *)
Definition init {A} (l : list A) : list A := take (length l - 1) l.
Definition olist {A} (o : option A) : list A := match o with Some x => [x] | None => [] end.

Definition donor_l (f : tree) (i : nat) : option (nat * tree * nat) :=
  match i with
  | 0 => None
  | S j =>
      match tkids f !! j, tkeys f !! j with
      | Some dn, Some fk => Some (j, dn, fk)
      | _, _ => None
      end
  end.
Definition donor_r (f : tree) (i : nat) : option (tree * nat) :=
  match tkids f !! S i, tkeys f !! i with
  | Some dn, Some fk => Some (dn, fk)
  | _, _ => None
  end.

(** Each gives the father, the number of added nodes, and the reference of the
    sibling that took part. *)
Definition rot_l (q len : nat) (f : tree) (i : nat) (dc dn : tree) (j fk dk : nat) : tree :=
  let dn' := Nd (q, len) (init (tkeys dn)) (init (tkids dn)) in
  let dc' := Nd (q, S len) (fk :: tkeys dc) (olist (last (tkids dn)) ++ tkids dc) in
  Nd (tref f) (<[j := dk]> (tkeys f)) (<[i := dc']> (<[j := dn']> (tkids f))).
Definition try_rot_l (q len : nat) (f : tree) (i : nat) (dc : tree) : option (tree * nat * ref) :=
  match donor_l f i with
  | Some (j, dn, fk) =>
      if (4 <? length (tkeys dn))%nat then
        match last (tkeys dn) with
        | Some dk => Some (rot_l q len f i dc dn j fk dk, S (S len), tref dn)
        | None => None
        end
      else None
  | None => None
  end.
Definition rot_r (q len : nat) (f : tree) (i : nat) (dc dn : tree) (fk dk : nat) : tree :=
  let dn' := Nd (q, len) (drop 1 (tkeys dn)) (drop 1 (tkids dn)) in
  let dc' := Nd (q, S len) (tkeys dc ++ [fk]) (tkids dc ++ olist (head (tkids dn))) in
  Nd (tref f) (<[i := dk]> (tkeys f)) (<[i := dc']> (<[S i := dn']> (tkids f))).
Definition try_rot_r (q len : nat) (f : tree) (i : nat) (dc : tree) : option (tree * nat * ref) :=
  match donor_r f i with
  | Some (dn, fk) =>
      if (4 <? length (tkeys dn))%nat then
        match head (tkeys dn) with
        | Some dk => Some (rot_r q len f i dc dn fk dk, S (S len), tref dn)
        | None => None
        end
      else None
  | None => None
  end.
Definition merged (q len j : nat) (f : tree) (l r : tree) (fk : nat) : tree :=
  Nd (tref f) (take j (tkeys f) ++ drop (S j) (tkeys f))
    (take j (tkids f) ++ Nd (q, len) (tkeys l ++ fk :: tkeys r) (tkids l ++ tkids r) :: drop (S (S j)) (tkids f)).
Definition try_merge_l (q len : nat) (f : tree) (i : nat) (dc : tree) : option (tree * nat * ref) :=
  match donor_l f i with
  | Some (j, dn, fk) => Some (merged q len j f dn dc fk, S len, tref dn)
  | None => None
  end.
Definition try_merge_r (q len : nat) (f : tree) (i : nat) (dc : tree) : option (tree * nat * ref) :=
  match donor_r f i with
  | Some (dn, fk) => Some (merged q len i f dc dn fk, S len, tref dn)
  | None => None
  end.

Definition prep1 (q len : nat) (f : tree) (i : nat) (dc : tree) : option (tree * nat * ref) :=
  match try_rot_l q len f i dc with Some x => Some x | None =>
  match try_rot_r q len f i dc with Some x => Some x | None =>
  match try_merge_l q len f i dc with Some x => Some x | None => try_merge_r q len f i dc
  end end end.

Fixpoint prep (q len : nat) (tp : zipper) (f : tree) (i : nat) (dc : tree)
    : option (tree * zipper * nat * list ref) :=
  match prep1 q len f i dc with
  | None => None
  | Some (f', len', d) =>
      match tp with
      | [] =>
          match tkeys f', tkids f' with
          | [], [c] => Some (c, [], len', [d])
          | _, _ => Some (Nd (q, len') (tkeys f') (tkids f'), [], S len', [d])
          end
      | (u, j) :: tp' =>
          if (4 <=? length (tkeys f'))%nat then
            Some (Nd (q, len') (tkeys f') (tkids f'), tp, S len', [d])
          else
            match prep q len' tp' u j f' with
            | Some (t, tpr, len'', D) => Some (t, tpr, len'', d :: D)
            | None => None
            end
      end
  end.

(** A frame split at two neighbouring children. *)
Lemma pair_flat r A B KA KB x y k :
  length KA = length A -> length KB = length B ->
  flat (Nd r (A ++ k :: B) (KA ++ x :: y :: KB)) =
  fl (map flat KA) A ++ (flat x ++ k :: flat y) ++ fr B (map flat KB).
Proof.
  intros H1 H2. rewrite flat_Nd, map_app, inter_fl by (by rewrite map_length). f_equal.
  transitivity (flat x ++ k :: inter (flat y :: map flat KB) B); [done|].
  rewrite inter_fr by (by rewrite map_length). by rewrite <-app_assoc.
Qed.
Lemma one_flat r A B KA KB x :
  length KA = length A -> length KB = length B ->
  flat (Nd r (A ++ B) (KA ++ x :: KB)) = fl (map flat KA) A ++ flat x ++ fr B (map flat KB).
Proof.
  intros H1 H2. rewrite flat_Nd, map_app. cbn [map]. apply inter_mid; by rewrite map_length.
Qed.

Lemma list_two {A} (l : list A) j x y :
  l !! j = Some x -> l !! S j = Some y -> l = take j l ++ x :: y :: drop (S (S j)) l.
Proof. intros H1 H2. rewrite <-(drop_S l y (S j)) by done. by apply kid_split. Qed.

Lemma init_snoc {A} (l : list A) x : init (l ++ [x]) = l.
Proof. unfold init. rewrite app_length. simpl. rewrite Nat.add_sub. apply take_app. Qed.
Lemma last_snoc_inv {A} (l : list A) x : last l = Some x -> l = init l ++ [x].
Proof.
  destruct l as [|y l] using rev_ind; [done|]. rewrite last_snoc, init_snoc. by intros [= ->].
Qed.

Lemma inter_app {A} (c1 c2 : list (list A)) k1 k k2 :
  c1 = [] /\ c2 = [] \/ length c1 = S (length k1) /\ length c2 = S (length k2) ->
  inter (c1 ++ c2) (k1 ++ k :: k2) = inter c1 k1 ++ k :: inter c2 k2.
Proof.
  intros Hc. rewrite (inter_key _ _ (length k1) k).
  - destruct Hc as [[-> ->]|[H1 H2]].
    + simpl. rewrite take_app. do 2 f_equal. replace (k1 ++ k :: k2) with ((k1 ++ [k]) ++ k2) by (by rewrite <-app_assoc).
      rewrite drop_app_alt; [done|]. rewrite app_length. simpl. lia.
    + rewrite take_app_alt by lia. rewrite take_app. rewrite drop_app_alt by lia. do 2 f_equal.
      replace (k1 ++ k :: k2) with ((k1 ++ [k]) ++ k2) by (by rewrite <-app_assoc).
      rewrite drop_app_alt; [done|]. rewrite app_length. simpl. lia.
  - destruct Hc as [[-> ->]|[H1 H2]]; [by left|right]. rewrite !app_length. simpl. lia.
  - by rewrite list_lookup_middle.
Qed.

(** Concatenating two nodes around a key. *)
Lemma join_flat g l r ra k : shape g l -> shape g r ->
  flat (Nd ra (tkeys l ++ k :: tkeys r) (tkids l ++ tkids r)) = flat l ++ k :: flat r.
Proof.
  intros Hl Hr. destruct l as [r1 k1 c1], r as [r2 k2 c2]. cbn [tkeys tkids]. rewrite !flat_Nd, map_app.
  apply inter_app. rewrite !map_length. destruct g; simpl in *.
  - destruct Hl as [-> _], Hr as [-> _]. by left.
  - right. tauto.
Qed.
Lemma join_shape g l r ra k : shape g l -> shape g r -> (length (tkeys l) + length (tkeys r) <= 7)%nat ->
  shape g (Nd ra (tkeys l ++ k :: tkeys r) (tkids l ++ tkids r)).
Proof.
  intros Hl Hr Hlen. destruct l as [r1 k1 c1], r as [r2 k2 c2]. cbn [tkeys tkids] in *. destruct g; simpl in *.
  - destruct Hl as [-> _], Hr as [-> _]. split; [done|]. rewrite app_length. simpl. lia.
  - destruct Hl as (L1 & L2 & L3), Hr as (R1 & R2 & R3). rewrite !app_length. simpl.
    split_and!; [lia|lia|]. by apply Forall_app.
Qed.

(** Taking the last or first key (and child) off a node. *)
Lemma unsnoc_node g t dk : shape g t -> last (tkeys t) = Some dk -> forall ra,
  shape g (Nd ra (init (tkeys t)) (init (tkids t))) /\
  length (init (tkeys t)) = (length (tkeys t) - 1)%nat /\
  match g with
  | 0 => last (tkids t) = None
  | S g' => exists c, last (tkids t) = Some c /\ okkid g' c
  end /\
  flat t = flat (Nd ra (init (tkeys t)) (init (tkids t))) ++ dk :: concat (map flat (olist (last (tkids t)))) /\
  concat (map refs (tkids t)) ≡ₚ concat (map refs (init (tkids t))) ++ concat (map refs (olist (last (tkids t)))).
Proof.
  intros Hs Hl ra. destruct t as [r ks cs]. cbn [tkeys tkids] in *.
  apply last_snoc_inv in Hl. set (ks' := init ks) in *. clearbody ks'. subst ks.
  destruct g as [|g].
  - destruct Hs as [-> H8]. rewrite app_length in H8. simpl in *. rewrite app_length. simpl. split_and!; try done; try lia.
  - destruct Hs as (H1 & H8 & HF). rewrite app_length in H1, H8. simpl in H1, H8.
    destruct cs as [|c cs _] using rev_ind; [done|]. rewrite last_snoc, init_snoc.
    rewrite app_length in H1. simpl in H1. apply Forall_app in HF as [HF Hc]. apply Forall_cons in Hc as [Hc _].
    split_and!.
    + simpl. split_and!; [lia|lia|done].
    + rewrite app_length. simpl. lia.
    + by exists c.
    + rewrite !flat_Nd, map_app. simpl. rewrite app_nil_r. rewrite inter_app; [by simpl; rewrite app_nil_r|]. right. rewrite map_length. simpl. lia.
    + rewrite map_app, concat_app. simpl. done.
Qed.
Lemma uncons_node g t dk : shape g t -> head (tkeys t) = Some dk -> forall ra,
  shape g (Nd ra (drop 1 (tkeys t)) (drop 1 (tkids t))) /\
  length (drop 1 (tkeys t)) = (length (tkeys t) - 1)%nat /\
  match g with
  | 0 => head (tkids t) = None
  | S g' => exists c, head (tkids t) = Some c /\ okkid g' c
  end /\
  flat t = concat (map flat (olist (head (tkids t)))) ++ dk :: flat (Nd ra (drop 1 (tkeys t)) (drop 1 (tkids t))) /\
  concat (map refs (tkids t)) ≡ₚ concat (map refs (drop 1 (tkids t))) ++ concat (map refs (olist (head (tkids t)))).
Proof.
  intros Hs Hl ra. destruct t as [r ks cs]. cbn [tkeys tkids] in *.
  destruct ks as [|k ks]; [done|]. injection Hl as ->. destruct g as [|g].
  - destruct Hs as [-> H8]. simpl in *. rewrite ?drop_0. split_and!; try done; lia.
  - destruct Hs as (H1 & H8 & HF). destruct cs as [|c cs]; [done|]. simpl in H1, H8.
    apply Forall_cons in HF as [Hc HF]. split_and!.
    + simpl. rewrite !drop_0. split_and!; [lia|lia|]. done.
    + simpl. rewrite !drop_0. lia.
    + by exists c.
    + simpl. by rewrite !drop_0, app_nil_r.
    + simpl. rewrite !drop_0, app_nil_r. solve_Permutation.
Qed.

Lemma ins_0 {A} (l l' : list A) x y : <[length l := x]> (l ++ y :: l') = l ++ x :: l'.
Proof. rewrite insert_app_r_alt by lia. by rewrite Nat.sub_diag. Qed.
Lemma ins_1 {A} (l l' : list A) x y z : <[S (length l) := x]> (l ++ y :: z :: l') = l ++ y :: x :: l'.
Proof. rewrite insert_app_r_alt by lia. by replace (S (length l) - length l)%nat with 1 by lia. Qed.
Lemma drop_1 {A} (l l' : list A) x : drop (S (length l)) (l ++ x :: l') = l'.
Proof.
  replace (l ++ x :: l') with ((l ++ [x]) ++ l') by (by rewrite <-app_assoc).
  apply drop_app_alt. rewrite app_length. simpl. lia.
Qed.
Lemma drop_2 {A} (l l' : list A) x y : drop (S (S (length l))) (l ++ x :: y :: l') = l'.
Proof.
  replace (l ++ x :: y :: l') with ((l ++ [x; y]) ++ l') by (by rewrite <-app_assoc).
  apply drop_app_alt. rewrite app_length. simpl. lia.
Qed.
Lemma take_1 {A} (l l' : list A) x : take (S (length l)) (l ++ x :: l') = l ++ [x].
Proof.
  replace (l ++ x :: l') with ((l ++ [x]) ++ l') by (by rewrite <-app_assoc).
  apply take_app_alt. rewrite app_length. simpl. lia.
Qed.

Lemma olist_shape g ra (o : option tree) :
  match g with 0 => o = None | S g' => exists c, o = Some c /\ okkid g' c end ->
  shape g (Nd ra [] (olist o)).
Proof.
  destruct g; [intros ->; simpl; split; [done|lia]|]. intros (c & -> & Hc). simpl. split_and!; [done|lia|].
  apply Forall_cons. by split.
Qed.
Lemma olist_flat ra (o : option tree) : flat (Nd ra [] (olist o)) = concat (map flat (olist o)).
Proof. by destruct o. Qed.

Record prep1_post (q len : nat) (f : tree) (i : nat) (dc : tree) (g : nat) (f' : tree) (len' : nat) (d : ref) : Prop := {
  pp_tref : tref f' = tref f;
  pp_shape : shape (S g) f';
  pp_flat : flat f' = flat (Nd (tref f) (tkeys f) (<[i := dc]> (tkids f)));
  pp_keys : (length (tkeys f') <= length (tkeys f) <= S (length (tkeys f')))%nat;
  pp_len : (len < len' <= len + 2)%nat;
  pp_one : tkeys f' = [] -> exists c, tkids f' = [c] /\ tref c = (q, len' - 1);
  pp_refs : d :: concat (map refs (tkids f')) ≡ₚ
    concat (map refs (tkids dc)) ++ concat (map refs (take i (tkids f))) ++ concat (map refs (drop (S i) (tkids f))) ++
    news q len len' }.

(** A frame laid out around a pair of neighbours. *)
Lemma frame_pair f j dn0 dn1 fk :
  length (tkids f) = S (length (tkeys f)) -> tkeys f !! j = Some fk ->
  tkids f !! j = Some dn0 -> tkids f !! S j = Some dn1 ->
  exists rf A B KA KB, f = Nd rf (A ++ fk :: B) (KA ++ dn0 :: dn1 :: KB) /\ length A = j /\ length KA = j /\ length KB = length B.
Proof.
  intros Hl Hk H0 H1. destruct f as [rf ks cs]. cbn [tkeys tkids] in *.
  exists rf, (take j ks), (drop (S j) ks), (take j cs), (drop (S (S j)) cs).
  apply lookup_lt_Some in Hk as Hlt. split_and!.
  - f_equal; [by apply kid_split|by apply list_two].
  - rewrite take_length. lia.
  - rewrite take_length. lia.
  - rewrite !drop_length. lia.
Qed.

Lemma merged_post q len j rf A B KA KB dn0 dn1 fk l r g :
  length A = j -> length KA = j -> length KB = length B -> (length (A ++ fk :: B) <= 8)%nat ->
  Forall (okkid g) KA -> Forall (okkid g) KB -> shape g l -> shape g r ->
  length (tkeys l) + length (tkeys r) = 7 ->
  let f := Nd rf (A ++ fk :: B) (KA ++ dn0 :: dn1 :: KB) in
  let f' := merged q len j f l r fk in
  tref f' = rf /\ shape (S g) f' /\
  flat f' = fl (map flat KA) A ++ (flat l ++ fk :: flat r) ++ fr B (map flat KB) /\
  S (length (tkeys f')) = length (A ++ fk :: B) /\
  (tkeys f' = [] -> exists c, tkids f' = [c] /\ tref c = (q, S len - 1)) /\
  concat (map refs (tkids f')) ≡ₚ concat (map refs (tkids l)) ++ concat (map refs (tkids r)) ++
    concat (map refs KA) ++ concat (map refs KB) ++ news q len (S len).
Proof.
  intros HA HK HB H8 FA FB Hl Hr H7 f f'. subst j. unfold f', merged, f. cbn [tkeys tkids tref].
  rewrite take_app, drop_1. rewrite <-HK. rewrite take_app, drop_2.
  rewrite app_length in H8. simpl in H8.
  assert (Forall (okkid g) (KA ++ Nd (q, len) (tkeys l ++ fk :: tkeys r) (tkids l ++ tkids r) :: KB)) as HF.
  { apply Forall_app. split; [done|]. apply Forall_cons. split; [|done]. split.
    - simpl. rewrite app_length. simpl. lia.
    - apply join_shape; [done|done|lia]. }
  split_and!.
  - done.
  - cbn [shape]. rewrite !app_length. simpl. split_and!; [lia|lia|done].
  - rewrite one_flat by done. by rewrite (join_flat g).
  - rewrite !app_length. simpl. lia.
  - intros He. apply app_eq_nil in He as [-> ->]. destruct KA, KB; try done. simpl. eexists. split; [done|].
    simpl. f_equal. lia.
  - rewrite map_app, concat_app. cbn [map concat]. rewrite refs_Nd, map_app, concat_app, (news_S q len), news_nil by lia.
    solve_Permutation.
Qed.

Lemma rot_post q len rf A B KA KB l r l' r' i d fk dk x y g F :
  length KA = length A -> length KB = length B -> (length (A ++ fk :: B) <= 8)%nat ->
  Forall (okkid g) KA -> Forall (okkid g) KB -> okkid g l' -> okkid g r' ->
  flat l' ++ dk :: flat r' = flat l ++ fk :: flat r ->
  refs l' ++ refs r' ≡ₚ F ++ [(q, len); (q, S len)] ->
  let f := Nd rf (A ++ fk :: B) (KA ++ x :: y :: KB) in
  let f' := Nd rf (A ++ dk :: B) (KA ++ l' :: r' :: KB) in
  forall dc, flat (Nd rf (tkeys f) (<[i := dc]> (tkids f))) = flat (Nd rf (A ++ fk :: B) (KA ++ l :: r :: KB)) ->
  d :: F ++ concat (map refs KA) ++ concat (map refs KB) ≡ₚ
    concat (map refs (tkids dc)) ++ concat (map refs (take i (tkids f))) ++ concat (map refs (drop (S i) (tkids f))) ->
  prep1_post q len f i dc g f' (S (S len)) d.
Proof.
  intros HA HB H8 FA FB Hl Hr Hfl Hrf f f' dc Hfd Hrd. unfold f, f'. rewrite app_length in H8. simpl in H8. split.
  - done.
  - cbn [shape]. rewrite !app_length. simpl. split_and!; [lia|lia|]. apply Forall_app. split; [done|].
    apply Forall_cons. split; [done|]. apply Forall_cons. by split.
  - transitivity (flat (Nd rf (A ++ fk :: B) (KA ++ l :: r :: KB))); [|by rewrite <-Hfd].
    rewrite !pair_flat by done. by rewrite Hfl.
  - simpl. rewrite !app_length. simpl. lia.
  - lia.
  - simpl. intros He. by apply app_eq_nil in He as [_ He].
  - cbn [tkids]. unfold f in Hrd. cbn [tkids] in Hrd. rewrite map_app, concat_app. cbn [map concat].
    rewrite (news_S q len), (news_S q (S len)), news_nil by lia.
    transitivity (concat (map refs KA) ++ (refs l' ++ refs r') ++ concat (map refs KB) ++ [d]); [solve_Permutation|].
    rewrite Hrf. transitivity ((d :: F ++ concat (map refs KA) ++ concat (map refs KB)) ++ [(q, len); (q, S len)]); [solve_Permutation|].
    rewrite Hrd. solve_Permutation.
Qed.

Lemma prep1_ok q len f i dc g :
  length (tkids f) = S (length (tkeys f)) -> (1 <= length (tkeys f) <= 8)%nat -> (i <= length (tkeys f))%nat ->
  Forall (okkid g) (take i (tkids f)) -> Forall (okkid g) (drop (S i) (tkids f)) ->
  shape g dc -> length (tkeys dc) = 3 ->
  exists f' len' d, prep1 q len f i dc = Some (f', len', d) /\ prep1_post q len f i dc g f' len' d.
Proof.
  intros Hl [H1 H8] Hi F1 F2 Hdc H3. unfold prep1.
  (* the neighbours *)
  assert (i = 0 /\ donor_l f i = None \/
    exists j dn x fk, i = S j /\ donor_l f i = Some (j, dn, fk) /\ okkid g dn /\
      tkeys f !! j = Some fk /\ tkids f !! j = Some dn /\ tkids f !! S j = Some x) as HL.
  { destruct i as [|j]; [by left|right]. simpl.
    destruct (lookup_lt_is_Some_2 (tkids f) j ltac:(lia)) as [dn Hdn].
    destruct (lookup_lt_is_Some_2 (tkids f) (S j) ltac:(lia)) as [x Hx].
    destruct (lookup_lt_is_Some_2 (tkeys f) j ltac:(lia)) as [fk Hfk].
    rewrite Hdn, Hfk. exists j, dn, x, fk.
    assert (okkid g dn) by (apply (Forall_lookup_1 _ _ j dn F1); by rewrite lookup_take by lia). done. }
  assert (i = length (tkeys f) /\ donor_r f i = None \/
    exists dn x fk, donor_r f i = Some (dn, fk) /\ okkid g dn /\
      tkeys f !! i = Some fk /\ tkids f !! i = Some x /\ tkids f !! S i = Some dn) as HR.
  { unfold donor_r. destruct (decide (i = length (tkeys f))) as [->|Hne].
    - left. split; [done|]. by rewrite (lookup_ge_None_2 (tkids f) (S _)) by lia.
    - right. destruct (lookup_lt_is_Some_2 (tkids f) i ltac:(lia)) as [x Hx].
      destruct (lookup_lt_is_Some_2 (tkids f) (S i) ltac:(lia)) as [dn Hdn].
      destruct (lookup_lt_is_Some_2 (tkeys f) i ltac:(lia)) as [fk Hfk].
      rewrite Hdn, Hfk. exists dn, x, fk.
      assert (okkid g dn) by (apply (Forall_lookup_1 _ _ 0 dn F2); by rewrite lookup_drop, Nat.add_0_r). done. }
  (* the left neighbour laid out *)
  assert (forall j dn fk, donor_l f i = Some (j, dn, fk) ->
    okkid g dn /\ exists rf A B KA KB x, f = Nd rf (A ++ fk :: B) (KA ++ dn :: x :: KB) /\ length A = j /\ length KA = j /\
      length KB = length B /\ i = S j /\ Forall (okkid g) KA /\ Forall (okkid g) KB) as HL'.
  { intros j dn fk Hd. destruct HL as [[_ ?]|(j' & dn' & x & fk' & -> & Hd' & Ho & Hk & H0 & Hx)]; [congruence|].
    rewrite Hd in Hd'. injection Hd' as <- <- <-. split; [done|].
    destruct (frame_pair f j dn x fk Hl Hk H0 Hx) as (rf & A & B & KA & KB & Hf & HA & HK & HB).
    exists rf, A, B, KA, KB, x. split_and!; try done; rewrite Hf in F1, F2; cbn [tkids] in F1, F2.
    - rewrite <-HK, take_1 in F1. by apply Forall_app in F1 as [F1 _].
    - by rewrite <-HK, drop_2 in F2. }
  assert (forall dn fk, donor_r f i = Some (dn, fk) ->
    okkid g dn /\ exists rf A B KA KB x, f = Nd rf (A ++ fk :: B) (KA ++ x :: dn :: KB) /\ length A = i /\ length KA = i /\
      length KB = length B /\ Forall (okkid g) KA /\ Forall (okkid g) KB) as HR'.
  { intros dn fk Hd. destruct HR as [[_ ?]|(dn' & x & fk' & Hd' & Ho & Hk & H0 & Hx)]; [congruence|].
    rewrite Hd in Hd'. injection Hd' as <- <-. split; [done|].
    destruct (frame_pair f i x dn fk Hl Hk H0 Hx) as (rf & A & B & KA & KB & Hf & HA & HK & HB).
    exists rf, A, B, KA, KB, x. split_and!; try done; rewrite Hf in F1, F2; cbn [tkids] in F1, F2.
    - by rewrite <-HK, take_app in F1.
    - rewrite <-HK, drop_1 in F2. by apply Forall_cons in F2 as [_ F2]. }
  assert (try_rot_l q len f i dc = None -> forall j dn fk, donor_l f i = Some (j, dn, fk) -> length (tkeys dn) = 4) as NL.
  { unfold try_rot_l. intros HN j dn fk Hd. rewrite Hd in HN. destruct (HL' _ _ _ Hd) as [[H4 _] _].
    destruct (Nat.ltb_spec 4 (length (tkeys dn))) as [Hlt|]; [|lia].
    destruct (last (tkeys dn)) eqn:El; [done|]. apply last_None in El. rewrite El in Hlt. simpl in Hlt. lia. }
  assert (try_rot_r q len f i dc = None -> forall dn fk, donor_r f i = Some (dn, fk) -> length (tkeys dn) = 4) as NR.
  { unfold try_rot_r. intros HN dn fk Hd. rewrite Hd in HN. destruct (HR' _ _ Hd) as [[H4 _] _].
    destruct (Nat.ltb_spec 4 (length (tkeys dn))) as [Hlt|]; [|lia].
    destruct (tkeys dn) eqn:El; simpl in *; [lia|done]. }
  destruct (try_rot_l q len f i dc) as [[[f' len'] d]|] eqn:E1.
  { exists f', len', d. split; [done|]. clear NL NR. unfold try_rot_l in E1.
    destruct (donor_l f i) as [[[j dn] fk]|] eqn:Ed; [|done].
    destruct (Nat.ltb_spec 4 (length (tkeys dn))) as [Hlt|]; [|done].
    destruct (last (tkeys dn)) as [dk|] eqn:El; [|done]. injection E1 as <- <- <-.
    destruct (HL' _ _ _ eq_refl) as [[_ Hdn] (rf & A & B & KA & KB & x & Hf & HA & HK & HB & -> & FA & FB)].
    destruct (unsnoc_node g dn dk Hdn El (q, len)) as (S1 & S2 & S3 & S4 & S5).
    unfold rot_l. rewrite Hf. cbn [tref tkeys tkids].
    rewrite <-HK, ins_0, ins_1. rewrite HK, <-HA, ins_0. rewrite HA, <-HK.
    pose proof (olist_shape g (0, 0) _ S3) as So.
    rewrite Hf in H8. cbn [tkeys] in H8.
    apply (rot_post q len rf A B KA KB dn dc) with
      (F := concat (map refs (tkids dn)) ++ concat (map refs (tkids dc))); try done.
    - lia.
    - split; [|done]. cbn [tkeys]. lia.
    - split; [simpl; lia|]. apply (join_shape g (Nd (0, 0) [] (olist (last (tkids dn)))) dc); [done|done|simpl; lia].
    - rewrite S4. pose proof (join_flat g (Nd (0, 0) [] (olist (last (tkids dn)))) dc (q, S len) fk So Hdc) as Hj.
      cbn [tkeys tkids app] in Hj. rewrite Hj, olist_flat. by rewrite <-app_assoc.
    - rewrite !refs_Nd, map_app, concat_app, S5. solve_Permutation.
    - cbn [tkeys tkids]. by rewrite ins_1.
    - cbn [tkids]. rewrite take_1, drop_2, map_app, concat_app. cbn [map concat]. rewrite refs_kids. solve_Permutation. }
  destruct (try_rot_r q len f i dc) as [[[f' len'] d]|] eqn:E2.
  { exists f', len', d. split; [done|]. clear NL NR. unfold try_rot_r in E2.
    destruct (donor_r f i) as [[dn fk]|] eqn:Ed; [|done].
    destruct (Nat.ltb_spec 4 (length (tkeys dn))) as [Hlt|]; [|done].
    destruct (head (tkeys dn)) as [dk|] eqn:El; [|done]. injection E2 as <- <- <-.
    destruct (HR' _ _ eq_refl) as [[_ Hdn] (rf & A & B & KA & KB & x & Hf & HA & HK & HB & FA & FB)].
    destruct (uncons_node g dn dk Hdn El (q, len)) as (S1 & S2 & S3 & S4 & S5).
    unfold rot_r. rewrite Hf. cbn [tref tkeys tkids].
    rewrite <-HK, ins_1, ins_0. rewrite HK, <-HA, ins_0. rewrite HA, <-HK.
    pose proof (olist_shape g (0, 0) _ S3) as So.
    rewrite Hf in H8. cbn [tkeys] in H8.
    apply (rot_post q len rf A B KA KB dc dn) with
      (F := concat (map refs (tkids dn)) ++ concat (map refs (tkids dc))); try done.
    - lia.
    - split; [simpl; rewrite app_length; simpl; lia|].
      apply (join_shape g dc (Nd (0, 0) [] (olist (head (tkids dn))))); [done|done|simpl; lia].
    - split; [|done]. cbn [tkeys]. lia.
    - rewrite S4. pose proof (join_flat g dc (Nd (0, 0) [] (olist (head (tkids dn)))) (q, S len) fk Hdc So) as Hj.
      cbn [tkeys tkids app] in Hj. rewrite Hj, olist_flat. by rewrite <-app_assoc.
    - rewrite !refs_Nd, map_app, concat_app, S5. solve_Permutation.
    - cbn [tkeys tkids]. by rewrite ins_0.
    - cbn [tkids]. rewrite take_app, drop_1. cbn [map concat]. rewrite refs_kids. solve_Permutation. }
  destruct (try_merge_l q len f i dc) as [[[f' len'] d]|] eqn:E3.
  { exists f', len', d. split; [done|]. unfold try_merge_l in E3.
    destruct (donor_l f i) as [[[j dn] fk]|] eqn:Ed; [|done]. injection E3 as <- <- <-.
    specialize (NL eq_refl _ _ _ eq_refl).
    destruct (HL' _ _ _ eq_refl) as [[_ Hdn] (rf & A & B & KA & KB & x & Hf & HA & HK & HB & -> & FA & FB)].
    rewrite Hf in H8 |- *. cbn [tkeys] in H8.
    destruct (merged_post q len j rf A B KA KB dn x fk dn dc g) as (M1 & M2 & M3 & M4 & M5 & M6); try done; [lia|].
    split; try done.
    - rewrite M3. cbn [tkeys tkids tref]. rewrite <-HK, ins_1, pair_flat by lia. done.
    - cbn [tkeys] in *. lia.
    - lia.
    - rewrite M6. cbn [tkids]. rewrite <-HK, take_1, drop_2, map_app, concat_app. cbn [map concat].
      rewrite refs_kids. solve_Permutation. }
  unfold try_merge_r. destruct (donor_r f i) as [[dn fk]|] eqn:Ed.
  2:{ exfalso. destruct HR as [[-> _]|(? & ? & ? & ? & _)]; [|done]. unfold try_merge_l in E3.
      destruct HL as [[? _]|(? & ? & ? & ? & _ & HD & _)]; [lia|]. by rewrite HD in E3. }
  eexists _, _, _. split; [done|].
  specialize (NR eq_refl _ _ eq_refl).
  destruct (HR' _ _ eq_refl) as [[_ Hdn] (rf & A & B & KA & KB & x & Hf & HA & HK & HB & FA & FB)].
  rewrite Hf in H8 |- *. cbn [tkeys] in H8.
  destruct (merged_post q len i rf A B KA KB x dn fk dc dn g) as (M1 & M2 & M3 & M4 & M5 & M6); try done; [lia|].
  split; try done.
  - rewrite M3. cbn [tkeys tkids tref]. rewrite <-HK, ins_0, pair_flat by lia. done.
  - cbn [tkeys] in *. lia.
  - lia.
  - rewrite M6. cbn [tkids]. rewrite <-HK, take_app, drop_1. cbn [map concat].
    rewrite refs_kids. solve_Permutation.
Qed.

(** The state of a deletion once the repairs are over: [t] is the last node added,
    [tpr] the path above it. *)
Record fixed (q g0 : nat) (F : list nat) (rs : list ref) (len : nat) (tp : zipper)
    (t : tree) (tpr : zipper) (len' : nat) (D : list ref) (g : nat) : Prop := {
  fx_zok : zok g 1 tpr;
  fx_shape : shape g t;
  fx_root : (match tpr with [] => rshape g t | _ => 4 <= length (tkeys t) end)%nat;
  fx_tref : tref t = (q, len' - 1);
  fx_len : (len < len')%nat;
  fx_suffix : exists pre, tp = pre ++ tpr;
  fx_height : (length tpr + g <= length tp + g0 <= S (length tpr + g))%nat;
  fx_max : (len' + length tpr <= len + 2 * length tp + 1)%nat;
  fx_flat : ctx_l tpr ++ flat t ++ ctx_r tpr = F;
  fx_refs : D ++ refs t ++ sibs tpr ≡ₚ rs ++ news q len len' }.

Lemma ctx_frame f i tp dc : length (tkids f) = S (length (tkeys f)) -> (i <= length (tkeys f))%nat ->
  ctx_l ((f, i) :: tp) ++ flat dc ++ ctx_r ((f, i) :: tp) =
  ctx_l tp ++ flat (Nd (tref f) (tkeys f) (<[i := dc]> (tkids f))) ++ ctx_r tp.
Proof. intros H1 H2. rewrite frame_flat by done. cbn [ctx_l ctx_r]. by rewrite <-!app_assoc. Qed.

Lemma flat_tref r t : flat (Nd r (tkeys t) (tkids t)) = flat t.
Proof. by destruct t. Qed.
Lemma shape_tref g r t : shape g (Nd r (tkeys t) (tkids t)) <-> shape g t.
Proof. destruct t, g; done. Qed.

Lemma prep_ok q tp : forall len f i dc g,
  zok g 1 ((f, i) :: tp) -> shape g dc -> length (tkeys dc) = 3 ->
  exists t tpr len' D g', prep q len tp f i dc = Some (t, tpr, len', D) /\
    fixed q g (ctx_l ((f, i) :: tp) ++ flat dc ++ ctx_r ((f, i) :: tp))
      (concat (map refs (tkids dc)) ++ sibs ((f, i) :: tp)) len ((f, i) :: tp) t tpr len' D g'.
Proof.
  induction tp as [|[u j] tp IH]; intros len f i dc g Hz Hs H3;
    destruct Hz as (Hl & H8 & Hlo & Hi & F1 & F2 & Hz).
  - destruct (prep1_ok q len f i dc g) as (f' & len' & d & E & [P1 P2 P3 P4 P5 P6 P7]); try done.
    cbn [prep]. rewrite E. rewrite ctx_frame by done.
    assert (tkeys f' = [] /\ (exists c, tkids f' = [c] /\ tref c = (q, len' - 1)) \/ tkeys f' <> []) as [[He (c & Hc & Hr)]|Hne].
    { destruct (tkeys f') eqn:Ek; [left|by right]. split; [done|]. by apply P6. }
    + rewrite He, Hc. eexists _, _, _, _, g. split; [done|].
      assert (okkid g c) as Hok.
      { destruct f' as [rf ks cs]. cbn [tkids tkeys] in *. subst. destruct P2 as (_ & _ & HF).
        by apply Forall_cons in HF as [? _]. }
      split; try done; cbn [length].
      * by apply Hok.
      * split; [by apply Hok|]. right. destruct Hok as [H4 _]. intros Hn. rewrite Hn in H4. simpl in H4. lia.
      * lia.
      * by eexists [(f, i)].
      * lia.
      * lia.
      * cbn [ctx_l ctx_r app]. rewrite <-P3. destruct f' as [rf ks cs]. cbn [tkeys tkids] in *. subst. simpl.
        by rewrite !app_nil_r.
      * cbn [sibs]. rewrite Hc in P7. cbn [map concat] in P7. rewrite !app_nil_r in *. simpl. rewrite P7. solve_Permutation.
    + exists (Nd (q, len') (tkeys f') (tkids f')), [], (S len'), [d], (S g). split.
      { destruct (tkeys f'); [done|done]. }
      split; try done; cbn [length].
      * by apply shape_tref.
      * split; [by apply shape_tref|by right].
      * simpl. f_equal. lia.
      * lia.
      * by eexists [(f, i)].
      * lia.
      * lia.
      * cbn [ctx_l ctx_r app]. by rewrite flat_tref, P3.
      * cbn [sibs]. rewrite refs_Nd, !app_nil_r. simpl.
        transitivity ((q, len') :: d :: concat (map refs (tkids f'))); [solve_Permutation|].
        rewrite P7, (news_app q len len' (S len')), (news_S q len'), news_nil by lia. solve_Permutation.
  - destruct (prep1_ok q len f i dc g) as (f' & len' & d & E & [P1 P2 P3 P4 P5 P6 P7]); try done; [lia|].
    cbn [prep]. rewrite E. rewrite ctx_frame by done.
    destruct (Nat.leb_spec 4 (length (tkeys f'))) as [H4|H4].
    + exists (Nd (q, len') (tkeys f') (tkids f')), ((u, j) :: tp), (S len'), [d], (S g). split; [done|].
      split; try done; cbn [length].
      * by apply shape_tref.
      * simpl. f_equal. lia.
      * lia.
      * by eexists [(f, i)].
      * lia.
      * lia.
      * by rewrite flat_tref, P3.
      * rewrite refs_Nd. change (sibs ((f, i) :: (u, j) :: tp)) with
          (concat (map refs (take i (tkids f))) ++ concat (map refs (drop (S i) (tkids f))) ++ sibs ((u, j) :: tp)).
        transitivity ((q, len') :: (d :: concat (map refs (tkids f'))) ++ sibs ((u, j) :: tp)); [solve_Permutation|].
        rewrite P7, (news_app q len len' (S len')), (news_S q len'), news_nil by lia. solve_Permutation.
    + destruct (IH len' u j f' (S g) Hz P2) as (t & tpr & len'' & D & g' & E' & [X1 X2 X3 X4 X5 X6 X7 X8 X9 X10]); [lia|].
      rewrite E'. exists t, tpr, len'', (d :: D), g'. split; [done|]. cbn [length] in *. split; try done.
      * lia.
      * destruct X6 as [pre ->]. by exists ((f, i) :: pre).
      * cbn [length]. lia.
      * cbn [length]. lia.
      * rewrite X9. by rewrite P3.
      * change (sibs ((f, i) :: (u, j) :: tp)) with
          (concat (map refs (take i (tkids f))) ++ concat (map refs (drop (S i) (tkids f))) ++ sibs ((u, j) :: tp)).
        transitivity (d :: D ++ refs t ++ sibs tpr); [solve_Permutation|]. rewrite X10.
        transitivity ((d :: concat (map refs (tkids f'))) ++ sibs ((u, j) :: tp) ++ news q len' len''); [solve_Permutation|].
        rewrite P7, (news_app q len len' len'') by lia. solve_Permutation.
Qed.

(** The rest of a deletion once a key has left the node [b], which lies below [tp]. *)
Definition pfix (q : nat) (b : tree) (tp : zipper) : option (tree * zipper * nat * list ref) :=
  match tp with
  | (f, i) :: tp' =>
      if (length (tkeys b) <? 4)%nat then prep q 0 tp' f i b
      else Some (Nd (q, 0) (tkeys b) (tkids b), tp, 1, [])
  | [] => Some (Nd (q, 0) (tkeys b) (tkids b), tp, 1, [])
  end.
Definition pdel (q : nat) (b : tree) (tp : zipper) : option (tree * nat * list ref) :=
  match pfix q b tp with
  | Some (t, tpr, len, D) => let '(T, len') := pprop q len tpr t in Some (T, len', D)
  | None => None
  end.

Lemma pfix_ok q b tp g :
  zok g 1 tp -> shape g b -> (match tp with [] => rshape g b | _ => 3 <= length (tkeys b) end)%nat ->
  exists t tpr len' D g', pfix q b tp = Some (t, tpr, len', D) /\
    fixed q g (ctx_l tp ++ flat b ++ ctx_r tp) (concat (map refs (tkids b)) ++ sibs tp) 0 tp t tpr len' D g'.
Proof.
  intros Hz Hs Hk. unfold pfix.
  assert ((match tp with [] => rshape g b | _ => 4 <= length (tkeys b) end)%nat ->
    fixed q g (ctx_l tp ++ flat b ++ ctx_r tp) (concat (map refs (tkids b)) ++ sibs tp) 0 tp
      (Nd (q, 0) (tkeys b) (tkids b)) tp 1 [] g) as Hdone.
  { intros H4. split; try done.
    - by apply shape_tref.
    - destruct tp; [|done]. destruct H4 as [H4 H4']. split; [by apply shape_tref|done].
    - lia.
    - by exists [].
    - lia.
    - lia.
    - by rewrite flat_tref.
    - rewrite refs_Nd, (news_S q 0), news_nil by lia. solve_Permutation. }
  destruct tp as [|[f i] tp].
  - eexists _, _, _, _, _. split; [done|]. by apply Hdone.
  - destruct (Nat.ltb_spec (length (tkeys b)) 4).
    + apply prep_ok; [done|done|lia].
    + eexists _, _, _, _, _. split; [done|]. by apply Hdone.
Qed.

Lemma pdel_ok q b tp g :
  zok g 1 tp -> shape g b -> (match tp with [] => rshape g b | _ => 3 <= length (tkeys b) end)%nat ->
  exists T len D h, pdel q b tp = Some (T, len, D) /\
    (h <= length tp + g <= S h)%nat /\ flat T = ctx_l tp ++ flat b ++ ctx_r tp /\ rshape h T /\
    tref T = (q, len - 1) /\ (0 < len <= 2 * length tp + 1)%nat /\
    D ++ refs T ≡ₚ concat (map refs (tkids b)) ++ sibs tp ++ news q 0 len.
Proof.
  intros Hz Hs Hk. destruct (pfix_ok q b tp g Hz Hs Hk) as (t & tpr & len' & D & g' & E & [X1 X2 X3 X4 X5 X6 X7 X8 X9 X10]).
  unfold pdel. rewrite E. destruct (pprop q len' tpr t) as [T len''] eqn:Ep.
  destruct (pprop_good q tpr g' 1 t len' T len'' Ep) as (E1 & E2 & E3 & E4 & E5); try done.
  exists T, len'', D, (length tpr + g')%nat. split_and!; try done; try lia.
  - by rewrite E1, X9.
  - rewrite E5. transitivity ((D ++ refs t ++ sibs tpr) ++ news q len' len''); [solve_Permutation|].
    rewrite X10, (news_app q 0 len' len'') by lia. solve_Permutation.
Qed.

(** ** Deletion: taking the key out *)
Definition del_key (i : nat) (b : tree) : tree := Nd (tref b) (take i (tkeys b) ++ drop (S i) (tkeys b)) (tkids b).
Definition set_key (i k : nat) (u : tree) : tree := Nd (tref u) (<[i := k]> (tkeys u)) (tkids u).

Lemma kl_fl u i c g : shape (S g) u -> tkids u !! i = Some c -> (i <= length (tkeys u))%nat ->
  kl u i = fl (map flat (take i (tkids u))) (take i (tkeys u)) ++ flat c.
Proof.
  intros Hs Hc Hi. apply shape_kids_length in Hs. unfold kl. rewrite (take_S_r _ _ _ Hc), map_app.
  rewrite <-(app_nil_r (take i (tkeys u))) at 1. rewrite inter_fl by (rewrite map_length, !take_length; lia).
  simpl. by rewrite app_nil_r.
Qed.
Lemma kr_fr u i c g : shape (S g) u -> tkids u !! S i = Some c -> (i < length (tkeys u))%nat ->
  kr u i = flat c ++ fr (drop (S i) (tkeys u)) (map flat (drop (S (S i)) (tkids u))).
Proof.
  intros Hs Hc Hi. apply shape_kids_length in Hs. unfold kr. rewrite (drop_S _ _ _ Hc).
  cbn [map]. apply inter_fr. rewrite map_length, !drop_length. lia.
Qed.
Lemma fl_snoc u i k : (i < length (tkids u))%nat -> (i <= length (tkeys u))%nat -> forall c g,
  shape (S g) u -> tkids u !! i = Some c ->
  fl (map flat (take (S i) (tkids u))) (take i (tkeys u) ++ [k]) = kl u i ++ [k].
Proof.
  intros H1 H2 c g Hs Hc. rewrite (kl_fl u i c g) by done. rewrite (take_S_r _ _ _ Hc), map_app. unfold fl.
  rewrite zip_with_app by (rewrite map_length, !take_length; lia). rewrite concat_app. simpl.
  by rewrite app_nil_r, <-!app_assoc.
Qed.

Lemma set_key_zok u i k ci tp g : shape (S g) u -> (ci <= length (tkeys u))%nat -> zok (S g) 1 tp ->
  (match tp with [] => 1 | _ => 4 end <= length (tkeys u))%nat -> zok g 1 ((set_key i k u, ci) :: tp).
Proof.
  intros Hs Hc Hz H4. destruct (shape_zok_frame g u ci Hs Hc) as (A & B & C & D).
  cbn [zok set_key tkeys tkids]. rewrite insert_length. done.
Qed.

Lemma del_right_flat u i q0 c rb rtp tp dk rest g :
  shape (S g) u -> tkeys u !! i = Some q0 -> tkids u !! S i = Some c ->
  chain rb rtp c -> zok 0 4 rtp -> tkids rb = [] -> tkeys rb = dk :: rest -> ctx_l rtp = [] ->
  ctx_l (rtp ++ (set_key i dk u, S i) :: tp) ++ rest ++ ctx_r (rtp ++ (set_key i dk u, S i) :: tp) =
  ctx_l tp ++ (kl u i ++ kr u i) ++ ctx_r tp.
Proof.
  intros Hs Hk Hc Hch Hz Hleaf Hrb Hl. pose proof (lookup_lt_Some _ _ _ Hk) as Hlt.
  pose proof (shape_kids_length _ _ Hs) as Hlen.
  destruct (lookup_lt_is_Some_2 (tkids u) i ltac:(lia)) as [c0 Hc0].
  rewrite ctx_l_app, ctx_r_app, Hl. cbn [ctx_l ctx_r set_key tkeys tkids].
  rewrite insert_take_drop by done.
  replace (take (S i) (take i (tkeys u) ++ dk :: drop (S i) (tkeys u))) with (take i (tkeys u) ++ [dk]).
  2:{ pose proof (take_1 (take i (tkeys u)) (drop (S i) (tkeys u)) dk) as E.
      by rewrite take_length, Nat.min_l in E by lia. }
  replace (drop (S i) (take i (tkeys u) ++ dk :: drop (S i) (tkeys u))) with (drop (S i) (tkeys u)).
  2:{ symmetry. rewrite drop_app_ge by (rewrite take_length; lia). rewrite take_length, Nat.min_l by lia.
      replace (S i - i)%nat with 1 by lia. simpl. by rewrite drop_0. }
  rewrite (fl_snoc u i dk ltac:(lia) ltac:(lia) c0 g Hs Hc0).
  rewrite (kr_fr u i c g Hs Hc Hlt). rewrite (chain_flat _ _ _ _ _ Hch Hz), Hl.
  destruct rb as [r ks cs]. simpl in Hleaf, Hrb. subst. simpl.
  rewrite <-?app_assoc. simpl. rewrite <-?app_assoc. done.
Qed.

Lemma del_left_flat u i q0 c lb ltp tp dk rest g :
  shape (S g) u -> tkeys u !! i = Some q0 -> tkids u !! i = Some c ->
  chain lb ltp c -> zok 0 4 ltp -> tkids lb = [] -> tkeys lb = rest ++ [dk] -> ctx_r ltp = [] ->
  ctx_l (ltp ++ (set_key i dk u, i) :: tp) ++ rest ++ ctx_r (ltp ++ (set_key i dk u, i) :: tp) =
  ctx_l tp ++ (kl u i ++ kr u i) ++ ctx_r tp.
Proof.
  intros Hs Hk Hc Hch Hz Hleaf Hlb Hr. pose proof (lookup_lt_Some _ _ _ Hk) as Hlt.
  pose proof (shape_kids_length _ _ Hs) as Hlen.
  destruct (lookup_lt_is_Some_2 (tkids u) (S i) ltac:(lia)) as [c1 Hc1].
  rewrite ctx_l_app, ctx_r_app, Hr. cbn [ctx_l ctx_r set_key tkeys tkids].
  rewrite insert_take_drop by done.
  rewrite take_app_alt by (rewrite take_length; lia).
  rewrite drop_app_alt by (rewrite take_length; lia).
  rewrite (kl_fl u i c g Hs Hc ltac:(lia)), (kr_fr u i c1 g Hs Hc1 Hlt).
  rewrite (drop_S _ _ _ Hc1). rewrite (chain_flat _ _ _ _ _ Hch Hz), Hr.
  destruct lb as [r ks cs]. simpl in Hleaf, Hlb. subst. unfold fr. simpl.
  rewrite ?app_nil_r, <-?app_assoc. simpl. rewrite <-?app_assoc. simpl. done.
Qed.

(** The zipper after the replacement has the same references as before. *)
Lemma sibs_set_key a u i k ci tp : sibs (a ++ (set_key i k u, ci) :: tp) = sibs (a ++ (u, ci) :: tp).
Proof. by rewrite !sibs_app. Qed.
Lemma prefs_set_key a u i k ci tp : prefs (a ++ (set_key i k u, ci) :: tp) = prefs (a ++ (u, ci) :: tp).
Proof. unfold prefs. by rewrite !map_app. Qed.

(** Descending towards an infinite key. *)
Lemma desc_pos_inf D T m p h : desc D PosInf T m p -> shape h T -> (h = 0 \/ 4 <= length (tkeys T))%nat -> ksorted D (flat T) ->
  exists b i tp, p = (b, i) :: tp /\ chain b tp T /\ length tp = h /\ zok 0 4 tp /\ shape 0 b /\
    (tp <> [] -> 4 <= length (tkeys b))%nat /\ ctx_r tp = [].
Proof.
  intros Hd Hs Hk Hsort. destruct (desc_zip _ _ _ _ _ _ 4 Hd Hs Hk Hsort) as (b & i & tp & g & -> & Hch & Hlen & Hz & Hsb & H4 & Hf).
  destruct m as [q|]; [destruct Hf as [_ Hf]; done|]. destruct Hf as (Hl & Hi & Hgt & Hlt).
  assert (g = 0) as -> by (destruct g; [done|by apply shape_nonleaf in Hsb]).
  exists b, i, tp. split_and!; try done; [lia|]. destruct (ctx_r tp) as [|x l]; [done|].
  specialize (Hlt x). rewrite elem_of_app, elem_of_cons in Hlt. discriminate Hlt. auto.
Qed.
Lemma desc_neg_inf D T m p h : desc D NegInf T m p -> shape h T -> (h = 0 \/ 4 <= length (tkeys T))%nat -> ksorted D (flat T) ->
  exists b i tp, p = (b, i) :: tp /\ chain b tp T /\ length tp = h /\ zok 0 4 tp /\ shape 0 b /\
    (tp <> [] -> 4 <= length (tkeys b))%nat /\ ctx_l tp = [].
Proof.
  intros Hd Hs Hk Hsort. destruct (desc_zip _ _ _ _ _ _ 4 Hd Hs Hk Hsort) as (b & i & tp & g & -> & Hch & Hlen & Hz & Hsb & H4 & Hf).
  destruct m as [q|]; [destruct Hf as [_ Hf]; done|]. destruct Hf as (Hl & Hi & Hgt & Hlt).
  assert (g = 0) as -> by (destruct g; [done|by apply shape_nonleaf in Hsb]).
  exists b, i, tp. split_and!; try done; [lia|]. destruct (ctx_l tp) as [|x l]; [done|].
  specialize (Hgt x). rewrite elem_of_app, elem_of_cons in Hgt. discriminate Hgt. auto.
Qed.
