(** Rely/guarantee weakest preconditions for [prog], and their meaning for
    uninterrupted runs. *)
From stdpp Require Import prelude gmap.
From Verif Require Import Bytes Codec Model.

(** [rwp R G p Q E s]: started in [s], with the environment allowed to make
    [R]-steps before every command, every own step satisfies [G]; a returned
    value satisfies [Q] and an abnormal end satisfies [E].  Others may also
    have made nodes [js], of which the program knows nothing, before it makes one. *)
Fixpoint rwp {A} (R G : st -> st -> Prop) (p : prog A)
    (Q : A -> st -> Prop) (E : stop -> st -> Prop) (s : st) : Prop :=
  forall s1, R s s1 ->
  match p with
  | Ret a => Q a s1
  | Stop x => E x s1
  | CoreLen k => rwp R G (k (length (core s1))) Q E s1
  | CoreGet q k =>
      G s1 (snd (exec_get q s1)) /\
      rwp R G (k (fst (exec_get q s1))) Q E (snd (exec_get q s1))
  | CoreAppend b k =>
      G s1 (snd (exec_append b s1)) /\
      rwp R G (k (fst (exec_append b s1))) Q E (snd (exec_append b s1))
  | CacheGet q k => rwp R G (k (cache s1 !! q)) Q E s1
  | CachePut q e k =>
      let s2 := set_cache s1 (<[q := e]> (cache s1)) in
      G s1 s2 /\ rwp R G k Q E s2
  | NodeNew nd k =>
      forall js,
      let s2 := set_heap s1 (heap s1 ++ js) in
      let s3 := set_heap s2 (heap s2 ++ [nd]) in
      G s2 s3 /\ rwp R G (k (length (heap s2))) Q E s3
  | NodeGet n k =>
      match heap s1 !! n with
      | Some nd => rwp R G (k nd) Q E s1
      | None => E SPanic s1
      end
  | NodeUpd n f k =>
      match heap s1 !! n with
      | Some nd =>
          match f nd with
          | Some nd' =>
              let s2 := set_heap s1 (<[n := nd']> (heap s1)) in
              G s1 s2 /\ rwp R G (k nd) Q E s2
          | None => E SPanic s1
          end
      | None => E SPanic s1
      end
  end.

Section rwp.
  Context (R G : st -> st -> Prop) (Rrefl : forall s, R s s).

  Lemma rwp_mono {A} (p : prog A) (Q Q' : A -> st -> Prop) (E E' : stop -> st -> Prop) s :
    (forall a s', Q a s' -> Q' a s') -> (forall x s', E x s' -> E' x s') ->
    rwp R G p Q E s -> rwp R G p Q' E' s.
  Proof.
    intros HQ HE. revert s.
    induction p as [a|x|k IH|q k IH|b k IH|q k IH|q e k IH|nd k IH|n k IH|n f k IH];
      intros s H s1 HR; specialize (H s1 HR); simpl in H.
    - by apply HQ.
    - by apply HE.
    - by apply IH.
    - destruct H. split; [done|]. by apply IH.
    - destruct H. split; [done|]. by apply IH.
    - by apply IH.
    - destruct H. split; [done|]. by apply IH.
    - intros js. destruct (H js). split; [done|]. by apply IH.
    - destruct (heap s1 !! n); [by apply IH|by apply HE].
    - destruct (heap s1 !! n) as [nd|]; [|by apply HE].
      destruct (f nd); [|by apply HE]. destruct H. split; [done|]. by apply IH.
  Qed.

  Lemma rwp_env {A} (p : prog A) (Q : A -> st -> Prop) (E : stop -> st -> Prop) s :
    (forall s1, R s s1 -> rwp R G p Q E s1) -> rwp R G p Q E s.
  Proof. intros H. apply H. apply Rrefl. Qed.

  Lemma rwp_bind {A B} (p : prog A) (f : A -> prog B) (Q : B -> st -> Prop) (E : stop -> st -> Prop) s :
    rwp R G p (fun a s' => rwp R G (f a) Q E s') E s -> rwp R G (pbind p f) Q E s.
  Proof.
    revert s.
    induction p as [a|x|k IH|q k IH|b k IH|q k IH|q e k IH|nd k IH|n k IH|n g k IH];
      intros s H.
    - simpl in *. apply rwp_env. done.
    - intros s1 HR. by apply H.
    - intros s1 HR. specialize (H s1 HR). by apply IH.
    - intros s1 HR. specialize (H s1 HR). simpl in H. destruct H. split; [done|]. by apply IH.
    - intros s1 HR. specialize (H s1 HR). simpl in H. destruct H. split; [done|]. by apply IH.
    - intros s1 HR. specialize (H s1 HR). by apply IH.
    - intros s1 HR. specialize (H s1 HR). simpl in H. destruct H. split; [done|]. by apply IH.
    - intros s1 HR. specialize (H s1 HR). simpl in H. intros js. destruct (H js). split; [done|]. by apply IH.
    - intros s1 HR. specialize (H s1 HR). simpl in H. simpl.
      destruct (heap s1 !! n); [by apply IH|done].
    - intros s1 HR. specialize (H s1 HR). simpl in H. simpl.
      destruct (heap s1 !! n) as [nd|]; [|done].
      destruct (g nd); [|done]. destruct H. split; [done|]. by apply IH.
  Qed.

  Lemma rwp_catch {A} (p : prog A) (Q : A + err -> st -> Prop) (E : stop -> st -> Prop) s :
    rwp R G p (fun a s' => Q (inl a) s')
      (fun x s' => match x with SErr e => Q (inr e) s' | _ => E x s' end) s ->
    rwp R G (catch p) Q E s.
  Proof.
    revert s.
    induction p as [a|x|k IH|q k IH|b k IH|q k IH|q e k IH|nd k IH|n k IH|n g k IH];
      intros s H.
    - done.
    - destruct x; intros s1 HR; exact (H s1 HR).
    - intros s1 HR. specialize (H s1 HR). by apply IH.
    - intros s1 HR. specialize (H s1 HR). simpl in H. destruct H. split; [done|]. by apply IH.
    - intros s1 HR. specialize (H s1 HR). simpl in H. destruct H. split; [done|]. by apply IH.
    - intros s1 HR. specialize (H s1 HR). by apply IH.
    - intros s1 HR. specialize (H s1 HR). simpl in H. destruct H. split; [done|]. by apply IH.
    - intros s1 HR. specialize (H s1 HR). simpl in H. intros js. destruct (H js). split; [done|]. by apply IH.
    - intros s1 HR. specialize (H s1 HR). simpl in H. simpl.
      destruct (heap s1 !! n); [by apply IH|done].
    - intros s1 HR. specialize (H s1 HR). simpl in H. simpl.
      destruct (heap s1 !! n) as [nd|]; [|done].
      destruct (g nd); [|done]. destruct H. split; [done|]. by apply IH.
  Qed.

  Lemma rwp_ret {A} (a : A) (Q : A -> st -> Prop) (E : stop -> st -> Prop) s :
    (forall s1, R s s1 -> Q a s1) -> rwp R G (Ret a) Q E s.
  Proof. done. Qed.
End rwp.

(** Without interference [rwp] is about [run]. *)
Lemma rwp_run {A} G (p : prog A) (Q : A -> st -> Prop) (E : stop -> st -> Prop) s :
  rwp eq G p Q E s ->
  match run p s with
  | (inl a, s') => Q a s'
  | (inr x, s') => E x s'
  end.
Proof.
  revert s.
  induction p as [a|x|k IH|q k IH|b k IH|q k IH|q e k IH|nd k IH|n k IH|n g k IH];
    intros s H; specialize (H s eq_refl); simpl in *; try (by apply H); try (by apply IH).
  - destruct (exec_get q s). destruct H. by apply IH.
  - destruct (exec_append b s). destruct H. by apply IH.
  - destruct H. by apply IH.
  - specialize (H []). rewrite app_nil_r in H. destruct H. by apply IH.
  - destruct (heap s !! n); [by apply IH|done].
  - destruct (heap s !! n) as [nd|]; [|done]. destruct (g nd); [|done]. destruct H. by apply IH.
Qed.

Lemma run_bind {A B} (p : prog A) (f : A -> prog B) s :
  run (pbind p f) s =
  match run p s with
  | (inl a, s') => run (f a) s'
  | (inr x, s') => (inr x, s')
  end.
Proof.
  revert s.
  induction p as [a|x|k IH|q k IH|b k IH|q k IH|q e k IH|nd k IH|n k IH|n g k IH];
    intros s; simpl; try done.
  - destruct (exec_get q s). apply IH.
  - destruct (exec_append b s). apply IH.
  - destruct (heap s !! n); done.
  - destruct (heap s !! n) as [nd|]; [|done]. by destruct (g nd).
Qed.

Lemma run_catch {A} (p : prog A) s :
  run (catch p) s =
  match run p s with
  | (inl a, s') => (inl (inl a), s')
  | (inr (SErr e), s') => (inl (inr e), s')
  | (inr x, s') => (inr x, s')
  end.
Proof.
  revert s.
  induction p as [a|x|k IH|q k IH|b k IH|q k IH|q e k IH|nd k IH|n k IH|n g k IH];
    intros s; simpl; try done.
  - by destruct x.
  - destruct (exec_get q s). apply IH.
  - destruct (exec_append b s). apply IH.
  - destruct (heap s !! n); done.
  - destruct (heap s !! n) as [nd|]; [|done]. by destruct (g nd).
Qed.
