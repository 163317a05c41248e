(* Property theorems for the scheduler: C48. *)
From Coq Require Import List Bool Arith Permutation.
From Verif Require Import SchedModel SchedProofs.
Import ListNotations.

(* three submissions, one earlier than the one being waited for, then soft stop *)
Definition ex_run : list action :=
  [ Lock 0; Enqueue 50; Notify; Wake 1; Enqueue 20; Wake 3; Notify; Enqueue 20; SoftStop; Wake 20; Finish; Notify; Lock 21; Finish;
    Lock 30; Notify; Wake 49; Wake 50; Finish; Lock 50 ].
Example sched_example :
  exists s, run init ex_run = Some s /\ thread s = Exited /\ force s = false /\ no_enqueue_after_soft ex_run /\
    fired s = [(Event 2 20, 20); (Event 1 20, 21); (Event 0 50, 50)].
Proof.
  eexists. split; [vm_compute; reflexivity|]. split; [reflexivity|]. split; [reflexivity|]. split; [|reflexivity].
  simpl. split; [|exact I]. intros d H. repeat (destruct H as [H|H]; [discriminate|]). exact H.
Qed.

(* C48: no task runs before its due time. *)
Theorem C48_never_early :
  forall (s : state) (e : event) (now : nat), reachable s -> In (e, now) (fired s) -> due e <= now.
Proof. exact never_early. Qed.
Print Assumptions C48_never_early.

(* C48: the task taken is the pending one with the least due time, among equal
   ones the one submitted last. *)
Theorem C48_takes_earliest_pending :
  forall (s : state) (x : action) (s' : state) (e : event) (now : nat),
    reachable s -> step s x = Some s' -> fired s' = fired s ++ [(e, now)] ->
    exists rest, events s = rest ++ [e] /\ events s' = rest /\
      forall y, In y rest -> due e < due y \/ (due e = due y /\ id y < id e).
Proof. exact takes_earliest. Qed.
Print Assumptions C48_takes_earliest_pending.
Example C48_takes_example :
  exists s s', run init (firstn 9 ex_run) = Some s /\ step s (Wake 20) = Some s' /\ fired s' = fired s ++ [(Event 2 20, 20)].
Proof. do 2 eexists. split; [vm_compute; reflexivity|]. split; vm_compute; reflexivity. Qed.

(* C48: every submitted task is pending or has been taken, exactly once. *)
Theorem C48_each_task_once :
  forall s : state, reachable s ->
    Permutation (accepted s) (fired_events s ++ events s) /\ NoDup (map id (accepted s)).
Proof. exact exactly_once. Qed.
Print Assumptions C48_each_task_once.

(* C48: when the destructor has joined the thread and nobody forced the stop,
   every submitted task has run. *)
Theorem C48_soft_stop_runs_everything :
  forall (xs : list action) (s : state),
    no_enqueue_after_soft xs -> run init xs = Some s -> thread s = Exited -> force s = false ->
    events s = [] /\ Permutation (accepted s) (fired_events s).
Proof. exact soft_stop_runs_all. Qed.
Print Assumptions C48_soft_stop_runs_everything.

(* C48: the thread never sleeps through a submission or a stop: if it waits, it
   has been or will be notified, or waits no longer than to the earliest due
   time. *)
Theorem C48_no_lost_wakeup :
  forall s : state, reachable s -> (events s <> [] \/ soft s = true \/ force s = true) -> will_wake s.
Proof. exact wakes. Qed.
Print Assumptions C48_no_lost_wakeup.
Example C48_wakeup_example :
  exists s, run init (firstn 5 ex_run) = Some s /\ thread s = WaitUntil 50 false /\ notifies s = 1 /\ events s = [Event 0 50; Event 1 20].
Proof. eexists. split; [vm_compute; reflexivity|]. vm_compute. repeat split. Qed.

(* C48: tasks with equal due time do not run in submission order. *)
Theorem C48_equal_times_fifo_refuted :
  exists s e1 e2 n1 n2, reachable s /\ fired s = [(e1, n1); (e2, n2)] /\ due e1 = due e2 /\ id e2 < id e1.
Proof.
  eexists. exists (Event 1 7), (Event 0 7), 9, 9.
  split; [exists [Enqueue 7; Enqueue 7; Lock 9; Finish; Lock 9]; vm_compute; reflexivity|]. vm_compute. repeat split. constructor.
Qed.
Print Assumptions C48_equal_times_fifo_refuted.

(* C48: a forced stop drops pending tasks. *)
Theorem C48_force_stop_runs_everything_refuted :
  exists s, reachable s /\ thread s = Exited /\ fired s = [] /\ accepted s = [Event 0 7].
Proof. eexists. split; [exists [Enqueue 7; ForceStop; Lock 9]; vm_compute; reflexivity|]. vm_compute. repeat split. Qed.
Print Assumptions C48_force_stop_runs_everything_refuted.
