(* C69: a mailbox on the pinned executor.  C70: the mailbox of an inbox. *)
From Coq Require Import List Bool Arith Permutation.
From Verif Require Import PinModel PinSpec PinProofs.
Import ListNotations.

(* there is a thread exactly while the mailbox is marked as scheduled, and never two
   of them; every thread ever started uses up one of the limit for good *)
Theorem C69_one_thread : forall A limit xs (s : state A), run A (init A limit) xs = Some s ->
  length (threads s) = (if scheduled s then 1 else 0) /\ next s = length (threads s) + ended s /\ next s + slots s <= limit.
Proof. exact @one_thread_only. Qed.
(* per kind, messages are handled in the order of acceptance, each at most once *)
Theorem C69_in_order : forall A limit xs (s : state A), run A (init A limit) xs = Some s ->
  accepted User (log s) = handled User (log s) ++ usr s /\ accepted Sys (log s) = handled Sys (log s) ++ sys s.
Proof. exact @order. Qed.
(* a user message is taken only when all accepted system messages have been *)
Theorem C69_system_first : forall A limit xs (s : state A) l1 m l2, run A (init A limit) xs = Some s ->
  log s = l1 ++ Handled A User m :: l2 -> accepted Sys l1 = handled Sys l1.
Proof. exact @system_first. Qed.
(* and only by a started actor *)
Theorem C69_user_needs_start : forall A limit xs (s : state A) x s' m, run A (init A limit) xs = Some s ->
  step A s x = Some s' -> log s' = log s ++ [Handled A User m] -> started s = true.
Proof. intros A limit xs s x s' m _. apply user_started. Qed.
(* a thread sleeps only when there is nothing for it to take *)
Theorem C69_no_lost_wakeup : forall A limit xs (s : state A) a, run A (init A limit) xs = Some s ->
  get_pc A (threads s) a = Some (Waiting A) -> sys s = [] /\ (started s = true -> usr s = []).
Proof. exact @no_lost_wakeup. Qed.
(* when no sender is half way, the thread, if any, sleeps, the mailbox is open and
   the executor never refused, then all that can be taken has been *)
Theorem C69_at_rest : forall A limit xs (s : state A), run A (init A limit) xs = Some s ->
  is_open s = true -> refused s = false -> pending s = 0 -> (forall a p, In (a, p) (threads s) -> p = Waiting A) ->
  sys s = [] /\ (started s = true -> usr s = []).
Proof. exact @at_rest. Qed.
(* a closed mailbox without thread and without a sender half way does nothing more *)
Theorem C69_closed_for_good : forall A limit xs (s : state A) ys s', run A (init A limit) xs = Some s ->
  is_open s = false -> threads s = [] -> pending s = 0 -> run A s ys = Some s' ->
  log s' = log s /\ threads s' = [] /\ is_open s' = false.
Proof. intros A limit xs s ys s' _. apply closed_quiet. Qed.
(* the mailbox is closed only because a system message was answered with a stop *)
Theorem C69_closed_by_stop : forall A limit xs (s : state A), run A (init A limit) xs = Some s -> is_open s = false ->
  exists a st, In (SysDone A a true st) xs.
Proof.
  intros A limit xs s H O. destruct (existsb stops xs) eqn:E.
  - apply existsb_exists in E as (x & I & T). destruct x; try discriminate. destruct stop; [|discriminate]. eauto.
  - destruct (closes_run _ _ _ H E (or_introl O)) as [B|[a []]]. discriminate.
Qed.
(* without a thread and with the limit used up, nothing is ever handled again,
   whatever is sent *)
Theorem C69_no_slot_no_progress : forall A limit xs (s : state A) ys s', run A (init A limit) xs = Some s ->
  slots s = 0 -> threads s = [] -> run A s ys = Some s' -> threads s' = [] /\ forall k, handled k (log s') = handled k (log s).
Proof. intros A limit xs s ys s' _ Z T H. destruct (no_slot ys s s' Z T H) as (_ & P & Q). auto. Qed.
Print Assumptions C69_one_thread.
Print Assumptions C69_closed_by_stop.
Print Assumptions C69_in_order.
Print Assumptions C69_system_first.
Print Assumptions C69_user_needs_start.
Print Assumptions C69_no_lost_wakeup.
Print Assumptions C69_at_rest.
Print Assumptions C69_closed_for_good.
Print Assumptions C69_no_slot_no_progress.

(* two senders race before the start; the user message waits for the start, and the
   thread sleeps and is woken by the third sender *)
Definition served : list (action nat) :=
  [Send nat User 7 0; Send nat Sys 1 0; SenderSchedules nat; SenderSchedules nat; Pop nat 0; SysDone nat 0 false true; Pop nat 0;
   UserDone nat 0; Pop nat 0; Send nat User 8 0].
Example C69_served_ex : run nat (init nat 2) served =
  Some (State nat [8] [] true true true 0 1 [(0, Popping nat)] 1 0 false
    [Accepted nat User 7; Accepted nat Sys 1; Handled nat Sys 1; Handled nat User 7; Accepted nat User 8]).
Proof. reflexivity. Qed.
Example C69_rest_ex : match run nat (init nat 2) (served ++ [Pop nat 0; UserDone nat 0; Pop nat 0]) with None => False | Some s =>
  is_open s = true /\ refused s = false /\ pending s = 0 /\ started s = true /\ get_pc nat (threads s) 0 = Some (Waiting nat) /\
  handled User (log s) = [7; 8] end.
Proof. vm_compute. repeat split; auto. Qed.
Example C69_closed_ex : match run nat (init nat 1) [Send nat Sys 1 0; SenderSchedules nat; Pop nat 0; Send nat User 5 0; SysDone nat 0 true false; Close nat 0] with None => False | Some s =>
  is_open s = false /\ threads s = [] /\ pending s = 0 /\ usr s = [5] /\ slots s = 0 end.
Proof. vm_compute. repeat split; auto. Qed.
(* only the thread of the mailbox reaches Waiting, and only a waiting one can be woken *)
Example C69_notify_ex : run nat (init nat 1) [Send nat Sys 1 0; SenderSchedules nat; Pop nat 0; Wakeup nat 0] = None.
Proof. reflexivity. Qed.

(* one would expect an accepted start message to be handled in the end: with the
   limit used up, say by the thread of an actor long stopped, it never is *)
Theorem C69_limit_refuted : exists limit xs (s : state nat), run nat (init nat limit) xs = Some s /\
  is_open s = true /\ pending s = 0 /\ sys s = [1] /\
  forall ys s', run nat s ys = Some s' -> handled Sys (log s') = [] /\ threads s' = [].
Proof.
  exists 1, [OtherMailbox nat; Send nat Sys 1 0; SenderSchedules nat].
  exists (State nat [] [1] true false false 0 0 [] 0 0 true [Accepted nat Sys 1]).
  split; [reflexivity|]. repeat split.
  - destruct (no_slot ys _ s' (eq_refl : slots (State nat [] [1] true false false 0 0 [] 0 0 true [Accepted nat Sys 1]) = 0) eq_refl H) as (_ & _ & Q). exact (Q Sys).
  - destruct (no_slot ys _ s' (eq_refl : slots (State nat [] [1] true false false 0 0 [] 0 0 true [Accepted nat Sys 1]) = 0) eq_refl H) as (_ & P & _). exact P.
Qed.
(* one would expect no message to be handled once the mailbox is closed, and the
   threads of closed mailboxes to end: a sender that was told to schedule before the
   first thread ran can do so after the close; the second thread handles what is left
   and then waits for ever (and with it the destructor of the executor, which joins it) *)
Theorem C69_thread_after_close_refuted : exists limit xs (s1 : state nat) ys s, run nat (init nat limit) xs = Some s1 /\
  is_open s1 = false /\ threads s1 = [] /\ handled Sys (log s1) = [1; 2] /\
  run nat s1 ys = Some s /\ handled Sys (log s) = [1; 2; 3] /\
  forall zs s', run nat s zs = Some s' -> threads s' = [(1, Waiting nat)] \/ threads s' = [(1, Popping nat)].
Proof.
  exists 2, [Send nat Sys 1 0; Send nat Sys 2 0; Send nat Sys 3 0; SenderSchedules nat; Pop nat 0; SysDone nat 0 false true; Pop nat 0; SysDone nat 0 true true; Close nat 0].
  exists (State nat [] [3] false false true 2 1 [] 1 1 false [Accepted nat Sys 1; Accepted nat Sys 2; Accepted nat Sys 3; Handled nat Sys 1; Handled nat Sys 2]).
  exists [SenderSchedules nat; Pop nat 1; SysDone nat 1 false true; Pop nat 1].
  exists (State nat [] [] false true true 1 0 [(1, Waiting nat)] 2 1 false [Accepted nat Sys 1; Accepted nat Sys 2; Accepted nat Sys 3; Handled nat Sys 1; Handled nat Sys 2; Handled nat Sys 3]).
  repeat split. intros zs s' H.
  pose proof (fun I => zombie 1 zs _ s' I H) as Z.
  destruct Z as (_ & _ & _ & _ & T); [|exact T]. repeat split; auto.
Qed.
Print Assumptions C69_limit_refuted.
Print Assumptions C69_thread_after_close_refuted.

(* what is received is what was sent, in that order and without repetition *)
Theorem C70_in_order : forall A xs (s : istate A), irun A (iinit A) xs = Some s -> isent (ilog s) = igot (ilog s) ++ iusr s.
Proof. intros A xs s H. exact (j_order _ (irun_inv _ _ _ iinit_inv H)). Qed.
(* every call of receive is still running or has returned exactly once *)
Theorem C70_calls : forall A xs (s : istate A), irun A (iinit A) xs = Some s ->
  Permutation (seq 0 (inext s)) (returned (ilog s) ++ map fst (receivers s)).
Proof. intros A xs s H. exact (j_calls _ (irun_inv _ _ _ iinit_inv H)). Qed.
(* a call returns nothing only when all that was sent so far had been received *)
Theorem C70_empty : forall A xs (s : istate A) l1 r l2, irun A (iinit A) xs = Some s ->
  ilog s = l1 ++ INone A r :: l2 -> isent l1 = igot l1.
Proof. intros A xs s l1 r l2 H. exact (j_none _ (irun_inv _ _ _ iinit_inv H) l1 r l2). Qed.
(* while a receiver sleeps, every message in the queue has a receiver that is awake *)
Theorem C70_no_lost_wakeup : forall A xs (s : istate A), irun A (iinit A) xs = Some s ->
  (exists r, In (r, Blocked) (receivers s)) ->
  length (iusr s) <= length (filter (fun e => negb (is_blocked (snd e))) (receivers s)).
Proof.
  intros A xs s H [r R]. apply (j_wake _ (irun_inv _ _ _ iinit_inv H)).
  unfold some_blocked. apply existsb_exists. exists (r, Blocked). auto.
Qed.
(* system messages (a watch or a stop request) sent to an inbox stay in its queue *)
Theorem C70_system_messages_kept : forall A xs (s : istate A), irun A (iinit A) xs = Some s -> isys s = system_sends xs.
Proof. intros A xs s H. exact (isys_kept _ _ _ H). Qed.
Print Assumptions C70_in_order.
Print Assumptions C70_calls.
Print Assumptions C70_empty.
Print Assumptions C70_no_lost_wakeup.
Print Assumptions C70_system_messages_kept.

(* two receivers sleep, a watch request wakes one for nothing, two messages arrive *)
Example C70_ex : irun nat (iinit nat)
  [IReceive nat; IReceive nat; ICheck nat 0 false; ICheck nat 1 false; ISend nat Sys 9 1; ICheck nat 1 false;
   ISend nat User 5 1; ISend nat User 6 0; ICheck nat 0 false; IReceive nat; ICheck nat 2 true; ICheck nat 1 true] =
  Some (IState nat [] [9] [] 3 [ISent nat 5; ISent nat 6; IGot nat 0 5; IGot nat 2 6; INone nat 1]).
Proof. reflexivity. Qed.
Example C70_blocked_ex : match irun nat (iinit nat) [IReceive nat; IReceive nat; ICheck nat 0 false; ICheck nat 1 false; ISend nat User 5 1] with None => False | Some s =>
  In (0, Blocked) (receivers s) /\ iusr s = [5] /\ In (1, Checking) (receivers s) end.
Proof. vm_compute. repeat split; auto. Qed.

(* nobody is kept from going on: a send is always possible, and accepted while the
   mailbox is open; a sender half way can schedule; a thread that does not sleep can
   take its next step, whatever the handler answers, and one that sleeps can wake up *)
Theorem C69_nobody_blocked : forall A limit xs (s : state A), run A (init A limit) xs = Some s ->
  (forall k m, exists w s', step A s (Send A k m w) = Some s' /\ log s' = log s ++ (if is_open s then [Accepted A k m] else [])) /\
  (pending s <> 0 -> exists s', step A s (SenderSchedules A) = Some s') /\
  (forall a p, In (a, p) (threads s) ->
     match p with
     | Popping _ => exists s', step A s (Pop A a) = Some s'
     | Waiting _ => exists s', step A s (Wakeup A a) = Some s'
     | HandlingSys _ _ => forall stop st, exists s', step A s (SysDone A a stop st) = Some s' /\ started s' = st
     | HandlingUser _ _ => exists s', step A s (UserDone A a) = Some s'
     | Closing _ => exists s', step A s (Close A a) = Some s' /\ is_open s' = false
     end).
Proof.
  intros A limit xs s H. destruct (C69_one_thread A limit xs s H) as [L _].
  assert (T : threads s = [] \/ exists a p, threads s = [(a, p)]).
  { destruct (threads s) as [|[a p] [|? ?]]; [auto|eauto|]. destruct (scheduled s); discriminate. }
  split; [|split].
  - intros k m. cbn [step]. unfold enqueue. destruct (is_open s); [|exists 0, s; rewrite app_nil_r; auto].
    assert (N : exists w ts, notify A w (threads s) = Some ts).
    { destruct T as [-> |(a & p & ->)]; [exists 0; eexists; reflexivity|]. exists a. unfold notify. cbn [existsb snd get_pc]. rewrite Nat.eqb_refl.
      destruct p; cbn; eexists; reflexivity. }
    destruct N as (w & ts & N). exists w. rewrite N. destruct k; eexists; split; reflexivity.
  - intros P. cbn [step]. destruct (pending s); [contradiction|]. eexists. reflexivity.
  - intros a p I. destruct T as [E|(b & q & E)]; rewrite E in I; [destruct I|]. destruct I as [[= -> ->]|[]].
    cbn [step]. rewrite E. cbn [get_pc]. rewrite Nat.eqb_refl. destruct p; try (intros; eexists; split; reflexivity); eexists; reflexivity.
Qed.
Print Assumptions C69_nobody_blocked.

(* the same for an inbox: a send is always possible, a call of receive that is awake
   returns a message if there is one, and gives up when it is due *)
Theorem C70_nobody_blocked : forall A xs (s : istate A), irun A (iinit A) xs = Some s ->
  (forall k m, exists w s', istep A s (ISend A k m w) = Some s' /\ isent (ilog s') = isent (ilog s) ++ (match k with User => [m] | Sys => [] end)) /\
  (forall r, In (r, Checking) (receivers s) -> forall due, exists s', istep A s (ICheck A r due) = Some s' /\
     (forall m t, iusr s = m :: t -> ilog s' = ilog s ++ [IGot A r m]) /\
     (iusr s = [] -> due = true -> ilog s' = ilog s ++ [INone A r])) /\
  (forall r, In (r, Blocked) (receivers s) -> exists s', istep A s (IWake A r) = Some s' /\ In (r, Checking) (receivers s')).
Proof.
  intros A xs s H. pose proof (irun_inv _ _ _ iinit_inv H) as J.
  assert (D : NoDup (map fst (receivers s))).
  { pose proof (Permutation_NoDup (j_calls _ J) (seq_NoDup _ _)) as D. clear -D. induction (returned (ilog s)) as [|x l IH]; [exact D|]. cbn in D. inversion D. auto. }
  assert (G : forall l r p, NoDup (map fst l) -> In (r, p) l -> iget l r = Some p).
  { clear. induction l as [|[b q] l IH]; intros r p D I; [destruct I|]. cbn in D |- *. inversion D as [|? ? N D']; subst. destruct I as [[= -> ->]|I].
    - now rewrite Nat.eqb_refl.
    - destruct (Nat.eqb_spec b r) as [->|]; [|auto]. exfalso. apply N. apply (in_map fst _ _ I). }
  assert (S : forall l r p, In (r, Blocked) l -> NoDup (map fst l) -> In (r, p) (iset l r p)).
  { clear. induction l as [|[b q] l IH]; intros r p I D; [destruct I|]. cbn in D |- *. inversion D as [|? ? N D']; subst. destruct I as [[= -> ->]|I].
    - rewrite Nat.eqb_refl. now left.
    - destruct (Nat.eqb_spec b r) as [->|]; [now left|right; auto]. }
  split; [|split].
  - intros k m. cbn [istep]. assert (N : exists w ts, inotify w (receivers s) = Some ts).
    { unfold inotify. destruct (existsb _ _) eqn:E; [|exists 0; eauto]. apply existsb_exists in E. destruct E as ([w p] & I & B). cbn in B. destruct p; [discriminate|].
      exists w. rewrite (G _ _ _ D I). eauto. }
    destruct N as (w & ts & N). exists w. rewrite N. eexists. split; [reflexivity|]. destruct k; cbn [ilog].
    + rewrite isent_app. reflexivity.
    + now rewrite app_nil_r.
  - intros r I due. cbn [istep]. rewrite (G _ _ _ D I). destruct (iusr s) as [|m t]; [destruct due|]; eexists; (split; [reflexivity|]); cbn [ilog]; split; intros; congruence.
  - intros r I. cbn [istep]. rewrite (G _ _ _ D I). eexists. split; [reflexivity|]. cbn [receivers]. now apply S.
Qed.
Print Assumptions C70_nobody_blocked.
