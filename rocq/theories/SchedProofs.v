(* Proofs about SchedModel. *)
From Coq Require Import List Bool Arith Lia Permutation Sorted.
From Verif Require Import SchedModel.
Import ListNotations.

(* e comes before x in the vector: x fires first *)
Definition after (e x : event) : Prop := due x < due e \/ (due x = due e /\ id e < id x).
Definition sorted (l : list event) := StronglySorted after l.

Lemma insert_perm e l : Permutation (e :: l) (insert_event e l).
Proof.
  induction l as [|x l IH]; simpl; [reflexivity|]. destruct (due x <? due e); [reflexivity|].
  rewrite perm_swap. now constructor.
Qed.
Lemma insert_sorted e l : sorted l -> Forall (fun x => id x < id e) l -> sorted (insert_event e l).
Proof.
  unfold sorted. induction 1 as [|x l S IH F]; intros L; simpl; [repeat constructor|].
  inversion L; subst. destruct (Nat.ltb_spec (due x) (due e)).
  - constructor; [constructor; assumption|]. constructor; [left; exact H|].
    rewrite Forall_forall in *. intros y I. specialize (F y I). unfold after in *. left. lia.
  - constructor; [apply IH; assumption|].
    rewrite Forall_forall in *. intros y I. apply (Permutation_in _ (Permutation_sym (insert_perm e l))) in I.
    destruct I as [->|I]; [|apply F, I]. unfold after. lia.
Qed.
Lemma split_last_spec l : match split_last l with None => l = [] | Some (r, x) => l = r ++ [x] end.
Proof.
  induction l as [|x l IH]; simpl; [reflexivity|]. destruct (split_last l) as [[r y]|]; subst; reflexivity.
Qed.
Lemma sorted_snoc r x : sorted (r ++ [x]) -> sorted r /\ Forall (fun y => after y x) r.
Proof.
  unfold sorted. induction r as [|y r IH]; simpl; intros S; [split; constructor|].
  inversion S; subst. destruct (IH H1) as [A B]. split.
  - constructor; [exact A|]. rewrite Forall_app in H2. apply H2.
  - constructor; [|exact B]. rewrite Forall_app in H2. destruct H2 as [_ H2]. now inversion H2.
Qed.

Definition fire_ok (f : event * nat) : Prop := due (fst f) <= snd f.

Record SI (s : state) : Prop := {
  si_sorted : sorted (events s);
  si_ids : Forall (fun e => id e < length (accepted s)) (events s);
  si_perm : Permutation (accepted s) (fired_events s ++ events s);
  si_nodup : map id (accepted s) = seq 0 (length (accepted s));
  si_fired : Forall fire_ok (fired s);
  si_wake : (thread s = WaitEmpty false -> (events s <> [] \/ soft s = true \/ force s = true) -> notifies s > 0) /\
            (forall t, thread s = WaitUntil t false -> events s <> [] /\
                (force s = true -> notifies s > 0) /\ (Forall (fun e => t <= due e) (events s) \/ notifies s > 0));
  si_wu : forall t n, thread s = WaitUntil t n -> events s <> []
}.

Lemma init_SI : SI init.
Proof. constructor; simpl; try constructor; try discriminate; auto. Qed.

Lemma advance_SI s now : SI s -> force s = false -> SI (advance s now).
Proof.
  intros [I1 I2 I3 I4 I5 I6 I7] Fo. unfold advance. pose proof (split_last_spec (events s)) as L.
  destruct (split_last (events s)) as [[r e]|].
  - destruct (Nat.ltb_spec now (due e)).
    + constructor; simpl; auto; try congruence.
      * split; [discriminate|]. intros t E. inversion E; subst. rewrite L. split; [destruct r; discriminate|].
        split; [congruence|]. left. rewrite L in I1. destruct (sorted_snoc r e I1) as [_ B].
        apply Forall_app. split; [|repeat constructor]. eapply Forall_impl; [|exact B]. unfold after. intros; lia.
      * intros t n E. rewrite L. destruct r; discriminate.
    + rewrite L in *. destruct (sorted_snoc r e I1) as [A B]. rewrite Forall_app in I2. destruct I2 as [I2 I2'].
      constructor; simpl; auto; try discriminate.
      * unfold fired_events in *; simpl. rewrite map_app; simpl. rewrite I3, <- app_assoc. apply Permutation_app_head.
        apply Permutation_sym, Permutation_cons_append.
      * apply Forall_app. split; [exact I5|]. repeat constructor; assumption.
      * split; intros; discriminate.
  - destruct (soft s) eqn:So; constructor; simpl; auto; try discriminate.
    + split; intros; discriminate.
    + split; [|intros; discriminate]. intros _ [K|[K|K]]; congruence.
Qed.

Lemma step_SI s x s' : SI s -> step s x = Some s' -> SI s'.
Proof.
  intros I H. destruct x as [t| | | |now|now|]; simpl in H.
  - inversion H; subst; clear H. destruct I as [I1 I2 I3 I4 I5 I6 I7].
    assert (NE : insert_event (Event (length (accepted s)) t) (events s) <> []).
    { destruct (events s); simpl; [discriminate|]. destruct (_ <? _); discriminate. }
    constructor; simpl; auto.
    + apply insert_sorted; [exact I1|exact I2].
    + rewrite app_length; simpl. apply (Permutation_Forall (insert_perm _ _)). constructor; simpl; [lia|].
      eapply Forall_impl; [|exact I2]. simpl. intros; lia.
    + unfold fired_events in *; simpl. rewrite <- insert_perm. rewrite I3, <- app_assoc. apply Permutation_app_head.
      apply Permutation_sym, Permutation_cons_append.
    + rewrite map_app, app_length, seq_app, I4. reflexivity.
    + split; [intros; lia|]. intros t' E. split; [exact NE|]. split; intros; lia.
  - inversion H; subst; clear H. destruct I as [I1 I2 I3 I4 I5 [I6 I6'] I7]. constructor; simpl; auto.
    split; [intros; lia|]. intros t E. destruct (I6' t E) as (A & B & C). split; [exact A|]. split; [intros; lia|right; lia].
  - inversion H; subst; clear H. destruct I as [I1 I2 I3 I4 I5 [I6 I6'] I7]. constructor; simpl; auto.
    split; [intros; lia|]. intros t E. destruct (I6' t E) as (A & B & C). split; [exact A|]. split; [intros; lia|right; lia].
  - destruct (notifies s) as [|n] eqn:N; [discriminate|]. inversion H; subst; clear H.
    destruct I as [I1 I2 I3 I4 I5 [I6 I6'] I7]. constructor; simpl; auto.
    + destruct (thread s); split; intros; discriminate.
    + destruct (thread s) as [|b|t b|e|] eqn:T; intros; try discriminate. eapply I7. reflexivity.
  - destruct (thread s) eqn:T; try discriminate. inversion H; subst; clear H. unfold exit_if_forced.
    destruct (force s) eqn:Fo; [|now apply advance_SI]. destruct I as [I1 I2 I3 I4 I5 I6 I7].
    constructor; simpl; auto; try discriminate. split; intros; discriminate.
  - assert (H' : Some (exit_if_forced s now) = Some s') by (destruct (thread s); try discriminate; exact H).
    inversion H'; subst; clear H H'. unfold exit_if_forced.
    destruct (force s) eqn:Fo; [|now apply advance_SI]. destruct I as [I1 I2 I3 I4 I5 I6 I7].
    constructor; simpl; auto; try discriminate. split; intros; discriminate.
  - destruct (thread s) eqn:T; try discriminate. inversion H; subst; clear H. destruct I as [I1 I2 I3 I4 I5 I6 I7].
    constructor; simpl; auto; try discriminate. split; intros; discriminate.
Qed.
Lemma run_SI xs s s' : SI s -> run s xs = Some s' -> SI s'.
Proof.
  revert s. induction xs as [|x xs IH]; simpl; intros s I H; [now inversion H; subst|].
  destruct (step s x) as [s1|] eqn:E; [|discriminate]. eapply IH; [eapply step_SI; eassumption|exact H].
Qed.
Lemma reachable_SI s : reachable s -> SI s.
Proof. intros [xs H]. eapply run_SI; [apply init_SI|exact H]. Qed.

Lemma never_early s e now : reachable s -> In (e, now) (fired s) -> due e <= now.
Proof.
  intros R I. apply reachable_SI in R. pose proof (si_fired _ R) as F. rewrite Forall_forall in F. exact (F _ I).
Qed.
Lemma takes_earliest s x s' e now : reachable s -> step s x = Some s' -> fired s' = fired s ++ [(e, now)] ->
  exists rest, events s = rest ++ [e] /\ events s' = rest /\ forall y, In y rest -> due e < due y \/ (due e = due y /\ id y < id e).
Proof.
  intros R H E. apply reachable_SI in R.
  assert (NE : forall l : list (event * nat), l <> l ++ [(e, now)]).
  { intros l K. apply (f_equal (@length _)) in K. rewrite app_length in K. simpl in K. lia. }
  assert (AD : forall n, fired (exit_if_forced s n) = fired s ++ [(e, now)] -> exists rest, events s = rest ++ [e] /\ events (exit_if_forced s n) = rest /\
    forall y, In y rest -> due e < due y \/ (due e = due y /\ id y < id e)).
  { intros n. unfold exit_if_forced, advance. destruct (force s); simpl; [intros K; now apply NE in K|].
    pose proof (split_last_spec (events s)) as L. destruct (split_last (events s)) as [[r z]|].
    - destruct (n <? due z); simpl; [intros K; now apply NE in K|]. intros K. apply app_inv_head in K. inversion K; subst.
      exists r. split; [exact L|]. split; [reflexivity|]. pose proof (si_sorted _ R) as S. rewrite L in S.
      destruct (sorted_snoc r e S) as [_ B]. rewrite Forall_forall in B. intros y I. specialize (B y I). unfold after in B. lia.
    - destruct (soft s); simpl; intros K; now apply NE in K. }
  destruct x as [t| | | |n|n|]; simpl in H.
  - inversion H; subst; simpl in E. now apply NE in E.
  - inversion H; subst; simpl in E. now apply NE in E.
  - inversion H; subst; simpl in E. now apply NE in E.
  - destruct (notifies s); [discriminate|]. inversion H; subst; simpl in E. now apply NE in E.
  - assert (H' : Some (exit_if_forced s n) = Some s') by (destruct (thread s); try discriminate; exact H). inversion H'; subst. now apply AD.
  - assert (H' : Some (exit_if_forced s n) = Some s') by (destruct (thread s); try discriminate; exact H). inversion H'; subst. now apply AD.
  - destruct (thread s); try discriminate. inversion H; subst; simpl in E. now apply NE in E.
Qed.
Lemma exactly_once s : reachable s -> Permutation (accepted s) (fired_events s ++ events s) /\ NoDup (map id (accepted s)).
Proof. intros R. apply reachable_SI in R. split; [apply R|]. rewrite (si_nodup _ R). apply seq_NoDup. Qed.

Lemma wakes s : reachable s -> (events s <> [] \/ soft s = true \/ force s = true) -> will_wake s.
Proof.
  intros R K. apply reachable_SI in R. unfold will_wake. destruct (thread s) as [|b|t b|e|] eqn:T; auto.
  - destruct b; [now left|]. right. destruct (si_wake _ R) as [W _]. now apply W.
  - destruct b; [now left|]. right. destruct (si_wake _ R) as [_ W]. destruct (W t T) as (A & B & [C|C]); [right; split; assumption|now left].
Qed.

(* soft stop: the thread leaves only with nothing left *)
Definition SO (s : state) := (thread s = Exited -> force s = false -> soft s = true /\ events s = []).
Lemma exit_SO s x s' : SO s -> step s x = Some s' -> (forall t, x = Enqueue t -> soft s = false) -> SO s'.
Proof.
  intros I H K. unfold SO in *. destruct x as [t| | | |now|now|]; simpl in H.
  - inversion H; subst; simpl. intros E F. destruct (I E F) as [A _]. rewrite (K t eq_refl) in A. discriminate.
  - inversion H; subst; simpl. intros E F. destruct (I E F) as [_ B]. auto.
  - inversion H; subst; simpl. intros _ F. discriminate.
  - destruct (notifies s); [discriminate|]. inversion H; subst; simpl. intros E F. apply I; [|exact F]. destruct (thread s); try discriminate; reflexivity.
  - assert (H' : Some (exit_if_forced s now) = Some s') by (destruct (thread s); try discriminate; exact H).
    inversion H'; subst. unfold exit_if_forced. destruct (force s) eqn:Fo; simpl; [congruence|]. unfold advance.
    pose proof (split_last_spec (events s)) as L. destruct (split_last (events s)) as [[r e]|]; [destruct (now <? due e); simpl; discriminate|].
    destruct (soft s) eqn:So; simpl; [auto|discriminate].
  - assert (H' : Some (exit_if_forced s now) = Some s') by (destruct (thread s); try discriminate; exact H).
    inversion H'; subst. unfold exit_if_forced. destruct (force s) eqn:Fo; simpl; [congruence|]. unfold advance.
    pose proof (split_last_spec (events s)) as L. destruct (split_last (events s)) as [[r e]|]; [destruct (now <? due e); simpl; discriminate|].
    destruct (soft s) eqn:So; simpl; [auto|discriminate].
  - destruct (thread s); try discriminate. inversion H; subst; simpl. discriminate.
Qed.
Lemma step_soft s x s' : step s x = Some s' -> soft s' = true -> soft s = true \/ x = SoftStop.
Proof.
  intros H K. destruct x; simpl in H; auto; left.
  - inversion H; subst. exact K.
  - inversion H; subst. exact K.
  - destruct (notifies s); [discriminate|]. inversion H; subst. exact K.
  - assert (H' : Some (exit_if_forced s now) = Some s') by (destruct (thread s); try discriminate; exact H).
    inversion H'; subst. revert K. unfold exit_if_forced, advance. destruct (force s), (split_last (events s)) as [[r e]|]; simpl; auto.
    + destruct (now <? due e); auto.
    + destruct (soft s); auto.
  - assert (H' : Some (exit_if_forced s now) = Some s') by (destruct (thread s); try discriminate; exact H).
    inversion H'; subst. revert K. unfold exit_if_forced, advance. destruct (force s), (split_last (events s)) as [[r e]|]; simpl; auto.
    + destruct (now <? due e); auto.
    + destruct (soft s); auto.
  - destruct (thread s); try discriminate. inversion H; subst. exact K.
Qed.
Lemma run_SO xs : forall s s', SO s -> no_enqueue_after_soft xs -> (soft s = true -> forall d, ~ In (Enqueue d) xs) ->
  run s xs = Some s' -> SO s'.
Proof.
  induction xs as [|x xs IH]; intros s s' I N Q H; simpl in H; [now inversion H; subst|].
  destruct (step s x) as [s1|] eqn:E; [|discriminate].
  apply (IH s1); [| | |exact H].
  - apply (exit_SO s x s1 I E). intros t ->. destruct (soft s) eqn:So; [|reflexivity]. exfalso. apply (Q eq_refl t). now left.
  - destruct x; simpl in N; try exact N. apply N.
  - intros K d. destruct (step_soft s x s1 E K) as [K'| ->].
    + specialize (Q K' d). intros Z. apply Q. now right.
    + simpl in N. apply N.
Qed.
Lemma soft_stop_runs_all xs s : no_enqueue_after_soft xs -> run init xs = Some s -> thread s = Exited -> force s = false ->
  events s = [] /\ Permutation (accepted s) (fired_events s).
Proof.
  intros N H E F. assert (I : SO s).
  { apply (run_SO xs init s); [unfold SO; discriminate|exact N|discriminate|exact H]. }
  destruct (I E F) as [_ K]. split; [exact K|]. pose proof (si_perm s (reachable_SI s (ex_intro _ xs H))) as P.
  now rewrite K, app_nil_r in P.
Qed.
