(** The rules of [Cffi.v] ask for no more than safety needs. *)
From Coq.Strings Require Import Byte String.
From Coq Require Import Lia.
From stdpp Require Import prelude gmap.
From Verif Require Import Bytes Codec Model Order Wp Store Spec Client Main Threads Ffi Cffi CffiProofs Demo.

Lemma not_obj m p x : ~ (exists a, p = PAt a /\ alive m a = Some x) -> is_obj m p x = false.
Proof. intros Hn. destruct (is_obj m p x) eqn:E; [|done]. destruct Hn. by apply is_obj_true. Qed.
Lemma rules_needed fuel base l tr st k : creach fuel (cstart fuel base l) tr st -> keeps_rules empty_book tr -> ~ allowed (book_of tr) k ->
  cstep fuel k st = None \/ exists a j rt, k = KCloseBee (PAt a) /\ (j, rt, a) ∈ b_gets (book_of tr).
Proof.
  intros Hr Hk Hn. destruct (rules_reach _ _ _ _ _ Hr Hk) as [H1 H2 H3 H4 _ _]. set (b := book_of tr) in *. clearbody b.
  destruct k as [ok|p|p path ok|p|rt hb key o|p|p len|j]; cbn [allowed] in Hn; cbn [cstep].
  - by destruct Hn.
  - left. rewrite not_obj; [done|]. intros (a & -> & Ha). apply Hn. exists a. by rewrite H1.
  - left. rewrite not_obj; [done|]. intros (a & -> & Ha). apply Hn. exists a. by rewrite H1.
  - destruct (is_obj (cs_mem st) p OBee) eqn:E; [|by left]. apply is_obj_true in E as (a & -> & Ha).
    destruct (List.find (fun g => snd g =? a)%nat (b_gets b)) as [[[j rt] a']|] eqn:Ef.
    + apply List.find_some in Ef as [Hin Ea]. cbn in Ea. apply Nat.eqb_eq in Ea as ->. right. exists a, j, rt. split; [done|]. by apply elem_of_list_In.
    + destruct Hn. exists a. rewrite H2. split_and!; [done|done|]. intros j rt Hj%elem_of_list_In. apply (List.find_none _ _ Ef) in Hj. cbn in Hj. by rewrite Nat.eqb_refl in Hj.
  - left. destruct key as [x|]; [|done]. destruct (is_obj (cs_mem st) rt ORuntime) eqn:E1; [|done]. destruct (is_obj (cs_mem st) hb OBee) eqn:E2; [|done].
    apply is_obj_true in E1 as (a & -> & Ha). apply is_obj_true in E2 as (c & -> & Hc). destruct Hn. exists a, c, x. by rewrite H1, H2.
  - left. rewrite not_obj; [done|]. intros (a & -> & Ha). apply Hn. exists a. by rewrite H3.
  - left. destruct p as [| |a]; [done|destruct (Nat.eqb_spec len 0) as [->|]; [|done]; destruct Hn; by left|].
    cbn [at_ptr]. destruct (alive (cs_mem st) a) as [[| | |x]|] eqn:Ea; try done. destruct (Nat.eqb_spec len (length x)) as [->|]; [|done].
    destruct Hn. right. exists a. rewrite H4. eauto.
  - by destruct Hn.
Qed.

(** Get [j], on runtime [rt] and Hyperbee [a], has not finished reading. *)
Lemma close_needed fuel base l tr st a j t o st' : creach fuel (cstart fuel base l) tr st -> keeps_rules empty_book tr ->
  cs_tasks st !! j = Some t -> gt_run t = true -> gt_bee t = a -> ~ over (gt_prog t) -> cstep fuel (KCloseBee (PAt a)) st = Some (o, st') ->
  (j, gt_rt t, a) ∈ b_gets (book_of tr) /\ cstep fuel (KStep j) st' = None /\ cstep fuel (KCloseRuntime (PAt (gt_rt t))) st' = None.
Proof.
  intros Hr Hk Hj Hrun <- Ho Hc. destruct (rules_reach _ _ _ _ _ Hr Hk) as [H1 H2 _ _ _ H6].
  destruct (H6 j t Hj Hrun) as (Ha & Hb & Hg). split; [done|].
  apply H1 in Ha. apply H2 in Hb. cbn [cstep] in Hc. rewrite (is_obj_alive _ _ _ Hb) in Hc by done. injection Hc as <- <-. cbn [cstep cs_mem cs_tasks].
  assert (is_obj (free (gt_bee t) (cs_mem st)) (PAt (gt_bee t)) OBee = false) as Hf.
  { apply not_obj. intros (a & [= <-] & E). by rewrite alive_free, Nat.eqb_refl in E. }
  cbn [addr]. rewrite Hj, Hrun. split.
  - rewrite Hf. destruct (gt_prog t); try done; by destruct Ho.
  - destruct (is_obj _ (PAt (gt_rt t)) ORuntime); [|done]. cbn [andb].
    destruct (forallb _ (cs_tasks st)) eqn:E; [|done]. rewrite forallb_forall in E. specialize (E t).
    unfold cancels_well in E. rewrite Hrun, Nat.eqb_refl, Hf in E. cbn in E. discriminate E. apply elem_of_list_In. by eapply elem_of_list_lookup_2.
Qed.
