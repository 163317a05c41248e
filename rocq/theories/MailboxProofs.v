(* Proofs about MailboxModel. *)
From Coq Require Import List Bool Arith Lia.
From Verif Require Import MailboxModel.
Import ListNotations.

Section Proofs.
Variable A : Type.
Variable tp : nat.
Notation state := (state A).
Notation step := (step A tp).
Notation run := (run A tp).

Definition b2n (b : bool) := if b then 1 else 0.
Definition mx := Nat.max 1 tp.

Definition inv_tasks (s : state) := queued s + length (acts s) = b2n (scheduled s).
Definition inv_work (s : state) := is_open s = true -> processable A s = true -> scheduled s = true \/ pending s > 0.
Definition inv_fifo (s : state) :=
  forall k, accepted_of A k (log s) = handled_of A k (log s) ++ match k with User => usr s | Sys => sys s end.
Definition inv_sent (s : state) :=
  forall k, prefix (accepted_of A k (log s)) (sent_of A k (sent s)) /\
            (is_open s = true -> accepted_of A k (log s) = sent_of A k (sent s)).
Definition inv_prio (s : state) :=
  forall pre m a post, log s = pre ++ Handled User m a :: post -> handled_of A Sys pre = accepted_of A Sys pre.
Definition act_ok (s : state) (a : nat) (p : pc A) :=
  match p with
  | Popping c | HandlingSys _ c => handled_users_by A a (log s) = c /\ c < mx
  | HandlingUser _ c => handled_users_by A a (log s) = S c /\ c < mx
  | Rescheduling | Closing => True
  end.
Definition inv_tp (s : state) :=
  (forall a p, In (a, p) (acts s) -> a < next_act s /\ act_ok s a p) /\
  (forall a, handled_users_by A a (log s) <= mx) /\
  (forall a, next_act s <= a -> handled_users_by A a (log s) = 0).

Definition inv (s : state) := inv_tasks s /\ inv_work s /\ inv_fifo s /\ inv_sent s /\ inv_prio s /\ inv_tp s.

Lemma acc_app k l1 l2 : accepted_of A k (l1 ++ l2) = accepted_of A k l1 ++ accepted_of A k l2.
Proof. apply flat_map_app. Qed.
Lemma han_app k l1 l2 : handled_of A k (l1 ++ l2) = handled_of A k l1 ++ handled_of A k l2.
Proof. apply flat_map_app. Qed.
Lemma sent_app k l1 l2 : sent_of A k (l1 ++ l2) = sent_of A k l1 ++ sent_of A k l2.
Proof. apply flat_map_app. Qed.
Lemma hub_app a l1 l2 : handled_users_by A a (l1 ++ l2) = handled_users_by A a l1 + handled_users_by A a l2.
Proof. unfold handled_users_by. rewrite filter_app, app_length. reflexivity. Qed.

Lemma prio_snoc (l : list (event A)) e :
  (forall pre m a post, l = pre ++ Handled User m a :: post -> handled_of A Sys pre = accepted_of A Sys pre) ->
  (match e with Handled User _ _ => handled_of A Sys l = accepted_of A Sys l | _ => True end) ->
  forall pre m a post, l ++ [e] = pre ++ Handled User m a :: post -> handled_of A Sys pre = accepted_of A Sys pre.
Proof.
  intros H He pre m a post E.
  destruct post as [|z post] using rev_ind.
  - apply app_inj_tail in E. destruct E as [-> ->]. exact He.
  - clear IHpost. change (pre ++ Handled User m a :: post ++ [z]) with (pre ++ (Handled User m a :: post) ++ [z]) in E.
    rewrite app_assoc in E. apply app_inj_tail in E. destruct E as [E _]. eapply H; exact E.
Qed.

Lemma init_inv : inv (init A).
Proof.
  unfold inv, init, inv_tasks, inv_work, inv_fifo, inv_sent, inv_prio, inv_tp; simpl. repeat split; try discriminate; auto.
  - intros []; reflexivity.
  - exists []; destruct k; reflexivity.
  - intros pre m a post E. destruct pre; discriminate.
  - destruct H.
  - destruct H.
  - intros; unfold handled_users_by; simpl; lia.
Qed.

Lemma get_one (l : list (nat * pc A)) a p : get_pc A l a = Some p -> length l <= 1 -> l = [(a, p)].
Proof.
  destruct l as [|[b q] [|x l]]; simpl; intros H L; [discriminate| |lia].
  destruct (Nat.eqb_spec b a); [|discriminate]. congruence.
Qed.

Lemma has_work_processable s : is_open s = true -> has_work A s = processable A s.
Proof. unfold has_work, processable. intros ->. destruct (started s), (usr s), (sys s); reflexivity. Qed.

Lemma schedule_same r s :
  usr (schedule A r s) = usr s /\ sys (schedule A r s) = sys s /\ is_open (schedule A r s) = is_open s /\
  started (schedule A r s) = started s /\ pending (schedule A r s) = pending s /\ acts (schedule A r s) = acts s /\
  next_act (schedule A r s) = next_act s /\ sent (schedule A r s) = sent s /\ log (schedule A r s) = log s.
Proof. unfold schedule. destruct (negb (scheduled s) || r); [destruct (has_work A s)|]; repeat split. Qed.

(* schedule called by a sender, or by the worker that just left *)
Lemma schedule_inv (r : bool) (s : state) :
  inv_fifo s -> inv_sent s -> inv_prio s -> inv_tp s ->
  (if r then queued s + length (acts s) = 0 else inv_tasks s) ->
  inv (schedule A r s).
Proof.
  intros H3 H4 H5 H6 H1.
  destruct (schedule_same r s) as (E1 & E2 & E3 & E4 & E5 & E6 & E7 & E8 & E9).
  assert (HT : inv_tasks (schedule A r s) /\ inv_work (schedule A r s)).
  { unfold inv_tasks, inv_work. rewrite E3, E6. unfold processable. rewrite E1, E2, E4.
    change (match sys s with [] => match usr s with [] => false | _ :: _ => started s end | _ :: _ => true end) with (processable A s).
    unfold schedule. destruct r.
    - rewrite orb_true_r. destruct (has_work A s) eqn:W; simpl.
      + split; [lia|]. auto.
      + split; [lia|]. intros O P. rewrite <- has_work_processable in P by exact O. congruence.
    - rewrite orb_false_r. destruct (scheduled s) eqn:Sc; simpl.
      + rewrite Sc. unfold inv_tasks in H1. rewrite Sc in H1. split; [exact H1|auto].
      + unfold inv_tasks in H1. rewrite Sc in H1. simpl in H1. destruct (has_work A s) eqn:W; simpl.
        * split; [lia|auto].
        * split; [lia|]. intros O P. rewrite <- has_work_processable in P by exact O. congruence. }
  destruct HT as [HT1 HT2]. split; [exact HT1|]. split; [exact HT2|]. split; [|split; [|split]].
  - unfold inv_fifo. rewrite E9, E1, E2. exact H3.
  - unfold inv_sent. rewrite E3, E8, E9. exact H4.
  - unfold inv_prio. rewrite E9. exact H5.
  - unfold inv_tp, act_ok. rewrite E6, E7, E9. exact H6.
Qed.

Lemma enqueue_inv k m s : inv s -> inv (enqueue A k m s).
Proof.
  intros (H1 & H2 & H3 & H4 & H5 & H6). unfold enqueue. destruct (is_open s) eqn:O.
  - destruct k; unfold inv; (split; [|split; [|split; [|split; [|split]]]]).
    (* User *)
    + exact H1.
    + unfold inv_work; simpl. intros _ _. destruct (scheduled s); [auto|right; lia].
    + intros k; simpl. rewrite acc_app, han_app, (H3 k). destruct k; simpl; rewrite ?app_nil_r, ?app_assoc; reflexivity.
    + intros k; simpl. destruct (H4 k) as [_ E]. specialize (E O). rewrite acc_app, sent_app, <- E.
      split; [|intros _; destruct k; reflexivity]. destruct k; simpl; exists []; rewrite !app_nil_r; reflexivity.
    + unfold inv_prio; simpl. apply prio_snoc; [exact H5|exact I].
    + destruct H6 as (Ha & Hb & Hc). unfold inv_tp; simpl. repeat split.
      * apply (Ha _ _ H).
      * destruct (Ha _ _ H) as [_ G]. unfold act_ok in *; simpl. rewrite hub_app, Nat.add_0_r. exact G.
      * intros a. rewrite hub_app, Nat.add_0_r. apply Hb.
      * intros a L. rewrite hub_app, Nat.add_0_r. apply Hc; exact L.
    (* Sys *)
    + exact H1.
    + unfold inv_work; simpl. intros _ _. destruct (scheduled s); [auto|right; lia].
    + intros k; simpl. rewrite acc_app, han_app, (H3 k). destruct k; simpl; rewrite ?app_nil_r, ?app_assoc; reflexivity.
    + intros k; simpl. destruct (H4 k) as [_ E]. specialize (E O). rewrite acc_app, sent_app, <- E.
      split; [|intros _; destruct k; reflexivity]. destruct k; simpl; exists []; rewrite !app_nil_r; reflexivity.
    + unfold inv_prio; simpl. apply prio_snoc; [exact H5|exact I].
    + destruct H6 as (Ha & Hb & Hc). unfold inv_tp; simpl. repeat split.
      * apply (Ha _ _ H).
      * destruct (Ha _ _ H) as [_ G]. unfold act_ok in *; simpl. rewrite hub_app, Nat.add_0_r. exact G.
      * intros a. rewrite hub_app, Nat.add_0_r. apply Hb.
      * intros a L. rewrite hub_app, Nat.add_0_r. apply Hc; exact L.
  - unfold inv. split; [exact H1|]. split; [unfold inv_work in *; simpl; congruence|].
    split; [exact H3|]. split; [|split; [exact H5|exact H6]].
    intros j; simpl. destruct (H4 j) as [(c & E) _]. split; [|congruence].
    exists (c ++ sent_of A j [(k, m)]). rewrite sent_app, E, app_assoc. reflexivity.
Qed.

Lemma one_act s a p : inv_tasks s -> get_pc A (acts s) a = Some p -> acts s = [(a,p)] /\ queued s = 0 /\ scheduled s = true.
Proof.
  unfold inv_tasks. intros H E.
  assert (L : length (acts s) <= 1) by (destruct (scheduled s); simpl in H; lia).
  pose proof (get_one _ _ _ E L) as G. rewrite G in H. simpl in H. destruct (scheduled s); simpl in H; repeat split; auto; lia.
Qed.

Lemma hub_one a k m b : handled_users_by A a [Handled k m b] = if (match k with User => b =? a | Sys => false end) then 1 else 0.
Proof. unfold handled_users_by. simpl. destruct k; [|reflexivity]. destruct (b =? a); reflexivity. Qed.

Lemma pop_inv a c s : inv s -> get_pc A (acts s) a = Some (Popping c) -> inv (pop A a c s).
Proof.
  intros (H1 & H2 & H3 & H4 & H5 & H6) E. destruct (one_act s a _ H1 E) as (Ea & Eq & Es).
  destruct H6 as (Ha & Hb & Hc).
  assert (Hac : a < next_act s /\ handled_users_by A a (log s) = c /\ c < mx).
  { apply (Ha a (Popping c)). rewrite Ea. left; reflexivity. }
  destruct Hac as (Hlt & Hcount & Hmx).
  assert (Hnone : inv (with_acts A s (set_pc A (acts s) a Rescheduling))).
  { unfold inv, with_acts. rewrite Ea. simpl. rewrite Nat.eqb_refl. split; [|split; [|split; [|split; [|split]]]];
      [unfold inv_tasks; simpl; rewrite Eq, Es; reflexivity|unfold inv_work; simpl; auto|exact H3|exact H4|exact H5|].
    unfold inv_tp; simpl. repeat split; auto; destruct H as [H|[]]; inversion H; subst; simpl; auto. }
  unfold pop. destruct (sys s) as [|m t] eqn:Esys.
  - destruct (started s) eqn:St; [|exact Hnone]. destruct (usr s) as [|m t] eqn:Eusr; [exact Hnone|].
    unfold inv. rewrite Ea. simpl. rewrite Nat.eqb_refl. split; [|split; [|split; [|split; [|split]]]].
    + unfold inv_tasks; simpl. rewrite Eq, Es. reflexivity.
    + unfold inv_work; simpl. auto.
    + intros k; simpl. rewrite acc_app, han_app, (H3 k), Eusr, Esys. destruct k; simpl; rewrite ?app_nil_r; [|reflexivity].
      rewrite <- app_assoc. reflexivity.
    + intros k; simpl. rewrite acc_app. simpl. rewrite app_nil_r. apply H4.
    + unfold inv_prio; simpl. apply prio_snoc; [exact H5|]. rewrite (H3 Sys), Esys, app_nil_r. reflexivity.
    + unfold inv_tp; simpl. repeat split.
      * destruct H as [H|[]]. inversion H; subst. exact Hlt.
      * destruct H as [H|[]]. inversion H; subst. simpl. rewrite hub_app, hub_one, Nat.eqb_refl. split; [lia|exact Hmx].
      * intros b. rewrite hub_app, hub_one. destruct (Nat.eqb_spec a b) as [<-|N]; [lia|]. rewrite Nat.add_0_r. apply Hb.
      * intros b L. rewrite hub_app, hub_one. destruct (Nat.eqb_spec a b) as [<-|N]; [lia|]. rewrite Nat.add_0_r. apply Hc; exact L.
  - unfold inv. rewrite Ea. simpl. rewrite Nat.eqb_refl. split; [|split; [|split; [|split; [|split]]]].
    + unfold inv_tasks; simpl. rewrite Eq, Es. reflexivity.
    + unfold inv_work; simpl. auto.
    + intros k; simpl. rewrite acc_app, han_app, (H3 k), Esys. destruct k; simpl; rewrite ?app_nil_r; [reflexivity|].
      rewrite <- app_assoc. reflexivity.
    + intros k; simpl. rewrite acc_app. simpl. rewrite app_nil_r. apply H4.
    + unfold inv_prio; simpl. apply prio_snoc; [exact H5|exact I].
    + unfold inv_tp; simpl. repeat split.
      * destruct H as [H|[]]. inversion H; subst. exact Hlt.
      * destruct H as [H|[]]. inversion H; subst. simpl. rewrite hub_app, hub_one, Nat.add_0_r. auto.
      * intros b. rewrite hub_app, hub_one, Nat.add_0_r. apply Hb.
      * intros b L. rewrite hub_app, hub_one, Nat.add_0_r. apply Hc; exact L.
Qed.

Lemma step_inv s x s' : inv s -> step s x = Some s' -> inv s'.
Proof.
  intros Hi E. pose proof Hi as (H1 & H2 & H3 & H4 & H5 & H6). destruct x; simpl in E.
  - inversion E; subst. apply enqueue_inv; exact Hi.
  - destruct (pending s) as [|p]; [discriminate|]. inversion E; subst. apply schedule_inv; auto.
  - destruct (queued s) as [|q] eqn:Q; [discriminate|]. inversion E; subst.
    destruct H6 as (Ha & Hb & Hc).
    split; [|split; [|split; [exact H3|split; [exact H4|split; [exact H5|]]]]].
    + unfold inv_tasks in *; simpl. rewrite app_length; simpl. lia.
    + exact H2.
    + unfold inv_tp; simpl. repeat split; auto.
      * apply in_app_or in H. destruct H as [H|[H|[]]]; [apply Ha in H; lia|inversion H; subst; lia].
      * apply in_app_or in H. destruct H as [H|[H|[]]]; [apply (Ha _ _ H)|inversion H; subst; simpl].
        split; [apply Hc; lia|unfold mx; lia].
      * intros b L. apply Hc; lia.
  - destruct (get_pc A (acts s) a) as [[c| | | |]|] eqn:G; try discriminate. inversion E; subst. apply pop_inv; assumption.
  - destruct (get_pc A (acts s) a) as [[|m c| | |]|] eqn:G; try discriminate. inversion E; subst.
    destruct (one_act s a _ H1 G) as (Ea & Eq & Es). destruct H6 as (Ha & Hb & Hc).
    assert (Hac : a < next_act s /\ handled_users_by A a (log s) = c /\ c < mx).
    { apply (Ha a (HandlingSys m c)). rewrite Ea. left; reflexivity. }
    unfold inv. rewrite Ea. simpl. rewrite Nat.eqb_refl. split; [|split; [|split; [exact H3|split; [exact H4|split; [exact H5|]]]]].
    + unfold inv_tasks; simpl. rewrite Eq, Es; reflexivity.
    + unfold inv_work; simpl. auto.
    + unfold inv_tp; simpl. split; [|auto]. intros b p [H|[]]. inversion H; subst.
      split; [tauto|]. destruct stop; simpl; tauto.
  - destruct (get_pc A (acts s) a) as [[| |m c| |]|] eqn:G; try discriminate. inversion E; subst.
    destruct (one_act s a _ H1 G) as (Ea & Eq & Es). destruct H6 as (Ha & Hb & Hc).
    assert (Hac : a < next_act s /\ handled_users_by A a (log s) = S c /\ c < mx).
    { apply (Ha a (HandlingUser m c)). rewrite Ea. left; reflexivity. }
    unfold inv, with_acts. rewrite Ea. cbn [set_pc]. rewrite Nat.eqb_refl. split; [|split; [|split; [exact H3|split; [exact H4|split; [exact H5|]]]]].
    + unfold inv_tasks; simpl. rewrite Eq, Es; reflexivity.
    + unfold inv_work; simpl. auto.
    + unfold inv_tp; cbn [acts next_act log]. split; [|auto]. intros b p [H|[]]. inversion H; subst.
      split; [tauto|]. destruct (Nat.leb_spec tp (S c)); simpl; [exact I|]. unfold mx. split; [tauto|lia].
  - destruct (get_pc A (acts s) a) as [[| | | |]|] eqn:G; try discriminate. inversion E; subst.
    destruct (one_act s a _ H1 G) as (Ea & Eq & Es).
    apply schedule_inv; auto.
    + destruct H6 as (Ha & Hb & Hc). unfold inv_tp, with_acts. rewrite Ea. simpl. rewrite Nat.eqb_refl. simpl. repeat split; auto; destruct H.
    + unfold with_acts. rewrite Ea. simpl. rewrite Nat.eqb_refl. simpl. lia.
  - destruct (get_pc A (acts s) a) as [[| | | |]|] eqn:G; try discriminate. inversion E; subst.
    destruct (one_act s a _ H1 G) as (Ea & Eq & Es). destruct H6 as (Ha & Hb & Hc).
    unfold inv. rewrite Ea. simpl. rewrite Nat.eqb_refl. split; [|split; [|split; [exact H3|split; [|split; [exact H5|]]]]].
    + unfold inv_tasks; simpl. rewrite Eq; reflexivity.
    + unfold inv_work; simpl. discriminate.
    + intros k; simpl. split; [apply H4|discriminate].
    + unfold inv_tp; simpl. repeat split; auto; destruct H.
Qed.

Lemma run_inv xs s s' : inv s -> run s xs = Some s' -> inv s'.
Proof.
  revert s; induction xs as [|x xs IH]; intros s Hi E; simpl in E; [congruence|].
  destruct (step s x) as [s1|] eqn:E1; [|discriminate]. eapply IH; [|exact E]. eapply step_inv; eassumption.
Qed.
Lemma reachable_inv s : reachable A tp s -> inv s.
Proof. intros (xs & E). eapply run_inv; [apply init_inv|exact E]. Qed.

(* ---- theorems ---- *)
Lemma handled_prefix s k : reachable A tp s -> prefix (handled_of A k (log s)) (accepted_of A k (log s)).
Proof. intros H. apply reachable_inv in H. destruct H as (_ & _ & H & _). rewrite (H k). eexists; reflexivity. Qed.
Lemma accepted_prefix s k : reachable A tp s -> prefix (accepted_of A k (log s)) (sent_of A k (sent s)).
Proof. intros H. apply reachable_inv in H. destruct H as (_ & _ & _ & H & _). apply (H k). Qed.
Lemma per_sender_order s k who : reachable A tp s ->
  prefix (from A who (handled_of A k (log s))) (from A who (sent_of A k (sent s))).
Proof.
  intros H. destruct (handled_prefix s k H) as (c & E). destruct (accepted_prefix s k H) as (d & E').
  rewrite E', E. unfold from. rewrite !filter_app, <- app_assoc. eexists; reflexivity.
Qed.
Lemma prio s pre m a post : reachable A tp s -> log s = pre ++ Handled User m a :: post -> handled_of A Sys pre = accepted_of A Sys pre.
Proof. intros H. apply reachable_inv in H. destruct H as (_ & _ & _ & _ & H & _). apply H. Qed.
Lemma no_stranded s : reachable A tp s -> is_open s = true -> processable A s = true ->
  queued s + length (acts s) > 0 \/ pending s > 0.
Proof.
  intros H O P. apply reachable_inv in H. destruct H as (H1 & H2 & _). destruct (H2 O P) as [Sc|Pe]; [|auto].
  left. unfold inv_tasks in H1. rewrite Sc in H1. simpl in H1. lia.
Qed.
Lemma mutual_exclusion s : reachable A tp s -> queued s + length (acts s) <= 1.
Proof. intros H. apply reachable_inv in H. destruct H as (H1 & _). unfold inv_tasks in H1. rewrite H1. destruct (scheduled s); simpl; lia. Qed.
Lemma no_task_when_unscheduled s : reachable A tp s -> scheduled s = false -> queued s = 0 /\ acts s = [].
Proof. intros H Sc. apply reachable_inv in H. destruct H as (H1 & _). unfold inv_tasks in H1. rewrite Sc in H1. simpl in H1.
  split; [lia|]. destruct (acts s); [reflexivity|simpl in H1; lia]. Qed.
Lemma throughput_bound s a : reachable A tp s -> handled_users_by A a (log s) <= Nat.max 1 tp.
Proof. intros H. apply reachable_inv in H. destruct H as (_ & _ & _ & _ & _ & _ & H & _). apply H. Qed.

(* ---- progress: internal steps terminate ---- *)
Definition pc_weight (s : state) (p : pc A) : nat :=
  match p with
  | Popping _ => 3
  | HandlingSys _ _ | HandlingUser _ _ => 7
  | Rescheduling => if has_work A s then 6 else 1
  | Closing => 2
  end.
Fixpoint acts_weight (s : state) (l : list (nat * pc A)) : nat :=
  match l with [] => 0 | (_, p) :: t => pc_weight s p + acts_weight s t end.
Definition measure (s : state) : nat :=
  8 * (length (usr s) + length (sys s)) + 5 * pending s + 4 * queued s + acts_weight s (acts s).

Lemma has_work_ext s s' : usr s = usr s' -> sys s = sys s' -> started s = started s' -> is_open s = is_open s' -> has_work A s = has_work A s'.
Proof. unfold has_work. intros -> -> -> ->. reflexivity. Qed.
Lemma aw_ext s s' l : has_work A s = has_work A s' -> acts_weight s l = acts_weight s' l.
Proof. intros H. induction l as [|[a p] l IH]; simpl; [reflexivity|]. rewrite IH. unfold pc_weight. rewrite H. reflexivity. Qed.
Lemma has_work_schedule r s : has_work A (schedule A r s) = has_work A s.
Proof. destruct (schedule_same r s) as (E1 & E2 & E3 & E4 & _). apply has_work_ext; assumption. Qed.

Lemma internal_decreases s x s' : inv s -> internal A x = true -> step s x = Some s' -> measure s' < measure s.
Proof.
  intros Hi Hx E. pose proof Hi as (H1 & _). destruct x; simpl in Hx; try discriminate; simpl in E.
  - destruct (pending s) as [|p] eqn:P; [discriminate|]. inversion E; subst. clear E.
    match goal with |- context [schedule A false ?z] => set (s0 := z) end.
    destruct (schedule_same false s0) as (E1 & E2 & E3 & E4 & E5 & E6 & _).
    unfold measure. rewrite E1, E2, E5, E6, P.
    change (usr s0) with (usr s). change (sys s0) with (sys s). change (pending s0) with p. change (acts s0) with (acts s).
    rewrite (aw_ext (schedule A false s0) s (acts s)) by (rewrite has_work_schedule; reflexivity).
    assert (queued (schedule A false s0) <= S (queued s)).
    { unfold schedule. destruct (negb (scheduled s0) || false); [destruct (has_work A s0)|]; simpl; lia. }
    lia.
  - destruct (queued s) as [|q] eqn:Q; [discriminate|]. inversion E; subst. clear E. unfold measure; simpl. rewrite Q.
    match goal with |- context [acts_weight ?z (acts s ++ _)] => set (s0 := z) end.
    assert (G : forall l, acts_weight s0 (l ++ [(next_act s, Popping 0)]) = acts_weight s l + 3).
    { induction l as [|[b p] l IH]; simpl; [reflexivity|]. rewrite IH. unfold pc_weight. 
      rewrite (has_work_ext s0 s) by reflexivity. lia. }
    rewrite G. lia.
  - destruct (get_pc A (acts s) a) as [[c| | | |]|] eqn:G; try discriminate. inversion E; subst. clear E.
    destruct (one_act s a _ H1 G) as (Ea & Eq & Es).
    unfold pop, measure. rewrite Ea. destruct (sys s) as [|m t] eqn:Sy.
    + destruct (started s) eqn:St.
      * destruct (usr s) as [|m t] eqn:Us; simpl; rewrite Nat.eqb_refl; simpl; rewrite ?Us, ?Sy; simpl; [|lia].
        unfold has_work; simpl. rewrite St, Us, Sy. simpl. lia.
      * simpl; rewrite Nat.eqb_refl; simpl. rewrite Sy. unfold has_work; simpl. rewrite St, Sy. simpl. lia.
    + simpl. rewrite Nat.eqb_refl. simpl. lia.
  - destruct (get_pc A (acts s) a) as [[|m c| | |]|] eqn:G; try discriminate. inversion E; subst. clear E.
    destruct (one_act s a _ H1 G) as (Ea & Eq & Es).
    unfold measure. rewrite Ea. simpl. rewrite Nat.eqb_refl. destruct stop; simpl; lia.
  - destruct (get_pc A (acts s) a) as [[| |m c| |]|] eqn:G; try discriminate. inversion E; subst. clear E.
    destruct (one_act s a _ H1 G) as (Ea & Eq & Es).
    unfold measure, with_acts. rewrite Ea. cbn [set_pc]. rewrite Nat.eqb_refl. destruct (tp <=? S c); simpl; [|lia].
    destruct (has_work A _); lia.
  - destruct (get_pc A (acts s) a) as [[| | | |]|] eqn:G; try discriminate. inversion E; subst. clear E.
    destruct (one_act s a _ H1 G) as (Ea & Eq & Es).
    match goal with |- context [schedule A true ?z] => set (s0 := z) end.
    destruct (schedule_same true s0) as (E1 & E2 & E3 & E4 & E5 & E6 & _).
    unfold measure. rewrite E1, E2, E5, E6.
    change (usr s0) with (usr s). change (sys s0) with (sys s). change (pending s0) with (pending s).
    change (acts s0) with (drop_act A (acts s) a). rewrite Ea. simpl. rewrite Nat.eqb_refl. simpl.
    assert (Hq0 : queued s0 = queued s) by reflexivity.
    assert (HW : has_work A s0 = has_work A s) by reflexivity.
    unfold schedule. rewrite orb_true_r, HW. destruct (has_work A s); simpl; lia.
  - destruct (get_pc A (acts s) a) as [[| | | |]|] eqn:G; try discriminate. inversion E; subst. clear E.
    destruct (one_act s a _ H1 G) as (Ea & Eq & Es).
    unfold measure. simpl. rewrite Ea. simpl. rewrite Nat.eqb_refl. simpl. lia.
Qed.

Lemma internal_run_bounded xs s s' : inv s -> Forall (fun x => internal A x = true) xs -> run s xs = Some s' -> length xs + measure s' <= measure s.
Proof.
  intros Hi HF; revert s Hi; induction HF as [|x xs Hx HF IH]; intros s Hi E; simpl in E |- *; [inversion E; subst; lia|].
  destruct (step s x) as [s1|] eqn:E1; [|discriminate].
  pose proof (internal_decreases s x s1 Hi Hx E1). pose proof (IH s1 (step_inv _ _ _ Hi E1) E). lia.
Qed.

(* a state without enabled internal step is idle *)
Lemma stuck_idle s : inv s -> (forall x, internal A x = true -> step s x = None) -> pending s = 0 /\ queued s = 0 /\ acts s = [].
Proof.
  intros (H1 & _) H. split; [|split].
  - specialize (H SenderSchedules eq_refl). simpl in H. destruct (pending s); [reflexivity|discriminate].
  - specialize (H WorkerStarts eq_refl). simpl in H. destruct (queued s); [reflexivity|discriminate].
  - unfold inv_tasks in H1. destruct (acts s) as [|[a p] [|y l]] eqn:E; [reflexivity| |destruct (scheduled s); simpl in H1; lia].
    exfalso. destruct p.
    + specialize (H (Pop a) eq_refl). simpl in H. rewrite E in H. simpl in H. rewrite Nat.eqb_refl in H. discriminate.
    + specialize (H (SysDone a false false) eq_refl). simpl in H. rewrite E in H. simpl in H. rewrite Nat.eqb_refl in H. discriminate.
    + specialize (H (UserDone a) eq_refl). simpl in H. rewrite E in H. simpl in H. rewrite Nat.eqb_refl in H. discriminate.
    + specialize (H (Reschedule a) eq_refl). simpl in H. rewrite E in H. simpl in H. rewrite Nat.eqb_refl in H. discriminate.
    + specialize (H (Close a) eq_refl). simpl in H. rewrite E in H. simpl in H. rewrite Nat.eqb_refl in H. discriminate.
Qed.

Lemma reachable_run s xs s' : reachable A tp s -> run s xs = Some s' -> reachable A tp s'.
Proof.
  intros (ys & E) E'. exists (ys ++ xs). revert E. generalize (init A). intros s0. revert s0.
  induction ys as [|y ys IH]; intros s0 E; simpl in *; [congruence|].
  destruct (step s0 y); [apply IH; exact E|discriminate].
Qed.

(* idle: everything processable was handled; if the actor is running, everything *)
Lemma idle_handled s : reachable A tp s -> pending s = 0 -> queued s = 0 -> acts s = [] -> is_open s = true ->
  handled_of A Sys (log s) = sent_of A Sys (sent s) /\
  (started s = true -> handled_of A User (log s) = sent_of A User (sent s)).
Proof.
  intros R P Q Ac O.
  assert (Pr : processable A s = false).
  { destruct (processable A s) eqn:E; [|reflexivity]. destruct (no_stranded s R O E) as [G|G]; [rewrite Q, Ac in G; simpl in G; lia|lia]. }
  apply reachable_inv in R. destruct R as (_ & _ & H3 & H4 & _).
  destruct (H4 Sys) as [_ E1]. destruct (H4 User) as [_ E2].
  rewrite <- (E1 O), <- (E2 O), (H3 Sys), (H3 User). unfold processable in Pr.
  destruct (sys s); [|discriminate]. rewrite app_nil_r. split; [reflexivity|]. intros St. rewrite St in Pr.
  destruct (usr s); [rewrite app_nil_r; reflexivity|discriminate].
Qed.

Lemma quiescence s : reachable A tp s ->
  (forall xs s', Forall (fun x => internal A x = true) xs -> run s xs = Some s' -> length xs <= measure s) /\
  (forall xs s', Forall (fun x => internal A x = true) xs -> run s xs = Some s' ->
     (forall x, internal A x = true -> step s' x = None) ->
     is_open s' = true ->
     handled_of A Sys (log s') = sent_of A Sys (sent s') /\
     (started s' = true -> handled_of A User (log s') = sent_of A User (sent s'))).
Proof.
  intros R. split.
  - intros xs s' HF E. pose proof (internal_run_bounded xs s s' (reachable_inv s R) HF E). lia.
  - intros xs s' HF E Hst O. assert (R' : reachable A tp s') by (eapply reachable_run; eassumption).
    destruct (stuck_idle s' (reachable_inv s' R') Hst) as (P & Q & Ac). apply idle_handled; assumption.
Qed.

(* when an activation ends without closing, it leaves nothing unscheduled *)
Lemma reschedule_requeues s a s' : reachable A tp s -> step s (Reschedule a) = Some s' ->
  is_open s' = true -> processable A s' = true -> queued s' = 1.
Proof.
  intros R E O P. assert (R' : reachable A tp s').
  { eapply (reachable_run s [Reschedule a]); [exact R|]. change (run s [Reschedule a]) with (match step s (Reschedule a) with None => None | Some z => Some z end). rewrite E. reflexivity. }
  pose proof (reachable_inv s R) as (H1 & _).
  simpl in E. destruct (get_pc A (acts s) a) as [[| | | |]|] eqn:G; try discriminate.
  destruct (one_act s a _ H1 G) as (Ea & Eq & Es). inversion E; subst. clear E.
  destruct (schedule_same true (with_acts A s (drop_act A (acts s) a))) as (E1 & E2 & E3 & E4 & E5 & E6 & _).
  unfold processable in P. rewrite E1, E2, E4 in P. rewrite E3 in O. 
  assert (W : has_work A (with_acts A s (drop_act A (acts s) a)) = true).
  { rewrite has_work_processable; [exact P|exact O]. }
  unfold schedule. rewrite orb_true_r, W. simpl. rewrite Eq. reflexivity.
Qed.
End Proofs.
