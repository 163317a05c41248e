(* Property theorems for the mailbox under the dynamic executor: C39-C42.
   [reachable] ranges over every interleaving of any number of senders and
   worker threads, with every reaction of the actor to its messages. *)
From Coq Require Import List Bool Arith.
From Verif Require Import MailboxModel MailboxProofs.
Import ListNotations.

(* an execution used in the examples: two senders, start first, throughput 1 *)
Definition ex_run : list (action nat) :=
  [ Send User (Msg 1 10); SenderSchedules;                      (* not started: waits *)
    Send Sys (Msg 0 0); Send User (Msg 2 20); SenderSchedules; SenderSchedules;
    WorkerStarts; Pop 0; SysDone 0 false true;                   (* start handled *)
    Pop 0; Send User (Msg 1 11); UserDone 0; Reschedule 0;       (* batch of one *)
    WorkerStarts; Pop 1; UserDone 1; Reschedule 1;
    WorkerStarts; Send Sys (Msg 3 1); Pop 2; SysDone 2 false true; Pop 2; UserDone 2; Reschedule 2 ].

Example mailbox_example :
  exists s, run nat 1 (init nat) ex_run = Some s /\
    handled_of nat User (log s) = [Msg 1 10; Msg 2 20; Msg 1 11] /\
    handled_of nat Sys (log s) = [Msg 0 0; Msg 3 1] /\ is_open s = true /\
    pending s = 0 /\ queued s = 0 /\ acts s = [].
Proof. eexists. split; [vm_compute; reflexivity|]. vm_compute. repeat split. Qed.

(* C39: user (and system) messages are handled in acceptance order, none is
   lost, duplicated or invented. *)
Theorem C39_handled_is_prefix_of_accepted :
  forall (A : Type) (throughput : nat) (s : state A) (k : kind),
    reachable A throughput s ->
    prefix (handled_of A k (log s)) (accepted_of A k (log s)).
Proof. exact handled_prefix. Qed.
Print Assumptions C39_handled_is_prefix_of_accepted.

(* C39: messages of one sender are handled in the order it sent them, with no
   gap (a mailbox never refuses a message and later accepts another). *)
Theorem C39_sender_order_preserved :
  forall (A : Type) (throughput : nat) (s : state A) (k : kind) (who : nat),
    reachable A throughput s ->
    prefix (from A who (handled_of A k (log s))) (from A who (sent_of A k (sent s))).
Proof. exact per_sender_order. Qed.
Print Assumptions C39_sender_order_preserved.

(* C39: when a user message is taken, every system message accepted so far has
   been taken already. *)
Theorem C39_system_messages_first :
  forall (A : Type) (throughput : nat) (s : state A) pre m a post,
    reachable A throughput s ->
    log s = pre ++ Handled User m a :: post ->
    handled_of A Sys pre = accepted_of A Sys pre.
Proof. exact prio. Qed.
Print Assumptions C39_system_messages_first.

(* C40: an open mailbox with a message the actor may process is queued or
   running, or some sender is about to schedule it. *)
Theorem C40_no_lost_wakeup :
  forall (A : Type) (throughput : nat) (s : state A),
    reachable A throughput s -> is_open s = true -> processable A s = true ->
    queued s + length (acts s) > 0 \/ pending s > 0.
Proof. exact no_stranded. Qed.
Print Assumptions C40_no_lost_wakeup.

(* C40: if nobody sends any more, every execution is finite, and when no step is
   possible every system message sent has been handled and, if the actor is
   started, every user message too. *)
Theorem C40_quiescence_means_all_handled :
  forall (A : Type) (throughput : nat) (s : state A), reachable A throughput s ->
  (exists bound, forall xs s', Forall (fun x => internal A x = true) xs ->
     run A throughput s xs = Some s' -> length xs <= bound) /\
  (forall xs s', Forall (fun x => internal A x = true) xs -> run A throughput s xs = Some s' ->
     (forall x, internal A x = true -> step A throughput s' x = None) ->
     is_open s' = true ->
     handled_of A Sys (log s') = sent_of A Sys (sent s') /\
     (started s' = true -> handled_of A User (log s') = sent_of A User (sent s'))).
Proof.
  intros A tp s R. destruct (quiescence A tp s R) as [H1 H2]. split; [exists (measure A s); exact H1|exact H2].
Qed.
Print Assumptions C40_quiescence_means_all_handled.

(* C41: at most one task of the mailbox exists, queued or running. *)
Theorem C41_mutual_exclusion :
  forall (A : Type) (throughput : nat) (s : state A),
    reachable A throughput s -> queued s + length (acts s) <= 1.
Proof. exact mutual_exclusion. Qed.
Print Assumptions C41_mutual_exclusion.

(* C41: the started flag, which senders read in schedule_for_execution only when
   the mailbox is not scheduled, is then not being written by any activation. *)
Theorem C41_unscheduled_means_no_activation :
  forall (A : Type) (throughput : nat) (s : state A),
    reachable A throughput s -> scheduled s = false -> queued s = 0 /\ acts s = [].
Proof. exact no_task_when_unscheduled. Qed.
Print Assumptions C41_unscheduled_means_no_activation.

(* C42: one activation handles at most max(1, throughput) user messages, over
   its whole life and whatever arrives meanwhile. *)
Theorem C42_throughput_bounds_activation :
  forall (A : Type) (throughput : nat) (s : state A) (a : nat),
    reachable A throughput s -> handled_users_by A a (log s) <= Nat.max 1 throughput.
Proof. exact throughput_bound. Qed.
Print Assumptions C42_throughput_bounds_activation.
Example C42_bound_is_reached :
  exists s, run nat 1 (init nat) ex_run = Some s /\ handled_users_by nat 1 (log s) = 1.
Proof. eexists. split; [vm_compute; reflexivity|]. vm_compute. repeat split. Qed.

(* C42: and on leaving it is queued again whenever anything is left. *)
Theorem C42_activation_requeues_rest :
  forall (A : Type) (throughput : nat) (s : state A) (a : nat) (s' : state A),
    reachable A throughput s -> step A throughput s (Reschedule a) = Some s' ->
    is_open s' = true -> processable A s' = true -> queued s' = 1.
Proof. exact reschedule_requeues. Qed.
Print Assumptions C42_activation_requeues_rest.
Example C42_requeue_example :
  exists s s', run nat 1 (init nat) (firstn 12 ex_run) = Some s /\ step nat 1 s (Reschedule 0) = Some s' /\
    is_open s' = true /\ processable nat s' = true.
Proof. do 2 eexists. split; [vm_compute; reflexivity|]. split; [vm_compute; reflexivity|]. vm_compute. repeat split. Qed.
