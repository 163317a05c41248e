(* Proofs about HelperModel. *)
From Coq Require Import List Bool Arith Lia.
From Verif Require Import ActorModel HelperModel.
Import ListNotations.

Lemma ask_is_find l : ask_result l = find_result (fun n => Some (Some n)) l.
Proof.
  unfold ask_result, find_result. generalize (@Promise (option nat) false []) as p.
  induction l as [|x l IH]; intros p; simpl; [reflexivity|]. rewrite IH. f_equal.
Qed.

Lemma find_sat sel l w : fold_left (find_step sel) l (Promise true w) = Promise true w.
Proof.
  induction l as [|x l IH]; simpl; [reflexivity|].
  destruct x; simpl; try exact IH. unfold set_once; simpl. destruct (sel n); exact IH.
Qed.
Lemma find_first sel l : writes (find_result sel l) = firstn 1 (offers sel l) /\
  satisfied (find_result sel l) = match offers sel l with [] => false | _ => true end.
Proof.
  unfold find_result. induction l as [|x l IH]; [split; reflexivity|].
  destruct x; simpl; try exact IH.
  - unfold set_once; simpl. rewrite find_sat. simpl. split; reflexivity.
  - destruct (sel n); [|exact IH]. unfold set_once; simpl. rewrite find_sat. simpl. split; reflexivity.
Qed.
Lemma offers_before_stop sel l : count is_poststop l = 0 -> offers sel l = sel_replies sel l.
Proof.
  unfold sel_replies, count. induction l as [|x l IH]; simpl; intros H; [reflexivity|].
  destruct x; simpl in *; try (apply IH; exact H); [discriminate|].
  destruct (sel n); simpl; rewrite (IH H); reflexivity.
Qed.
Lemma offers_stop sel l : In PostStop l -> offers sel l <> [].
Proof.
  induction l as [|x l IH]; simpl; [tauto|]. intros [->|H]; [discriminate|].
  destruct x; simpl; try (apply IH; exact H); [discriminate|].
  destruct (sel n); [discriminate|apply IH, H].
Qed.
(* with at most one post_stop, and no reply after it *)
Lemma offers_shape sel l : (forall pre n post, l = pre ++ Receive n :: post -> count is_poststop pre = 0) ->
  count is_poststop l <= 1 ->
  offers sel l = sel_replies sel l ++ repeat None (count is_poststop l).
Proof.
  unfold sel_replies. induction l as [|x l IH] using rev_ind; [reflexivity|]. intros O C.
  assert (A : forall a b, offers sel (a ++ b) = offers sel a ++ offers sel b).
  { induction a as [|y a IHa]; intros b; [reflexivity|]. simpl. destruct y; simpl; rewrite ?IHa; try reflexivity.
    destruct (sel n); simpl; rewrite ?IHa; reflexivity. }
  assert (E : count is_poststop (l ++ [x]) = count is_poststop l + count is_poststop [x]).
  { unfold count. rewrite filter_app, app_length. reflexivity. }
  rewrite A, E. unfold replies. rewrite !flat_map_app. fold (replies l). rewrite E in C. rewrite IH.
  - destruct x; simpl; rewrite ?app_nil_r; try (change (count is_poststop [_]) with 0); rewrite ?Nat.add_0_r; try reflexivity.
    + change (count is_poststop [PostStop]) with 1 in *. replace (count is_poststop l) with 0 by lia. simpl.
      rewrite app_nil_r. reflexivity.
    + assert (Z : count is_poststop l = 0) by (apply (O l n []); reflexivity).
      rewrite Z. unfold count. simpl. rewrite !app_nil_r. destruct (sel n); simpl; rewrite ?app_nil_r; reflexivity.
  - intros pre n post ->. apply (O pre n (post ++ [x])). rewrite <- app_assoc. reflexivity.
  - lia.
Qed.

Section Behaviours.
Variable B : Type.
Lemma bstep_nonempty st o st' : st <> [] -> bstep B st o = Some st' -> st' <> [].
Proof.
  destruct o as [[b|] d|]; simpl.
  - destruct d; [destruct st|]; simpl; intros N H; inversion H; subst; try discriminate; contradiction.
  - intros N H. inversion H; subst. exact N.
  - intros N H. inversion H; subst. unfold unbecome. destruct st as [|t [|u r]]; simpl; try congruence.
Qed.
Lemma bstep_defined st o : st <> [] -> exists st', bstep B st o = Some st'.
Proof.
  destruct o as [[b|] d|]; simpl; try (eexists; reflexivity).
  destruct d; [destruct st|]; simpl; intros; try (eexists; reflexivity); contradiction.
Qed.
Lemma brun_nonempty os st : st <> [] -> exists st', brun B st os = Some st' /\ st' <> [].
Proof.
  revert st. induction os as [|o os IH]; simpl; intros st N; [exists st; split; [reflexivity|exact N]|].
  destruct (bstep_defined st o N) as [st1 E]. rewrite E. apply IH. eapply bstep_nonempty; eassumption.
Qed.
Lemma brun_app os1 os2 st : brun B st (os1 ++ os2) = match brun B st os1 with None => None | Some s => brun B s os2 end.
Proof.
  revert st. induction os1 as [|o os1 IH]; simpl; intros st; [reflexivity|]. destruct (bstep B st o); [apply IH|reflexivity].
Qed.
Lemma nested_top os : nested B os -> forall t, exists t', top_after B t os t'.
Proof.
  induction 1; intros t.
  - eexists; constructor.
  - destruct (IHnested t) as [t' H']. exists t'. now constructor.
  - destruct (IHnested b) as [t' H']. exists t'. now constructor.
  - destruct (IHnested2 t) as [t' H']. exists t'. now constructor.
Qed.
Lemma nested_keeps os : nested B os -> forall t rest, exists t', brun B (t :: rest) os = Some (t' :: rest).
Proof.
  induction 1 as [|d os N IH|b os N IH|b inner os N1 IH1 N2 IH2]; intros t rest; simpl; eauto.
  destruct (IH1 b (t :: rest)) as [b' E]. rewrite brun_app, E. simpl. apply IH2.
Qed.
Lemma nested_run os t t' : top_after B t os t' -> forall rest, brun B (t :: rest) os = Some (t' :: rest).
Proof.
  induction 1 as [|t d os t' T IH|t b os t' T IH|t b inner os t' N T IH]; intros rest; simpl; auto.
  destruct (nested_keeps inner N b (t :: rest)) as [b' E]. rewrite brun_app, E. simpl. apply IH.
Qed.
Lemma push_pop_identity b inner : nested B inner -> forall st, st <> [] ->
  brun B st (Become (Some b) false :: inner ++ [Unbecome]) = Some st.
Proof.
  intros N st S. simpl. destruct (nested_keeps inner N b st) as [b' E]. rewrite brun_app, E.
  simpl. destruct st; [contradiction|]. reflexivity.
Qed.
End Behaviours.
