(* Property theorems for the thread pool: C47. *)
From Coq Require Import List Bool Arith Permutation.
From Verif Require Import PoolModel PoolProofs.
Import ListNotations.

(* two workers, three tasks, one spurious wake-up, then the destructor *)
Definition ex_run : list action :=
  [ Enter 0; Enter 1; Enqueue 5 1; Spurious 0; Enter 0; Enter 1; Enqueue 6 1; Enqueue 7 7; Finish 0 false; StopAll;
    Enter 0; Enter 1 ].
Example pool_example :
  exists s, run (init 2) (firstn 10 ex_run) = Some s /\ accepted s = [5; 6; 7] /\ began s = [5] /\ tasks s = [6; 7] /\
    stop s = true /\ crashed s = false.
Proof. eexists. split; [vm_compute; reflexivity|]. vm_compute. repeat split. Qed.

(* C47: tasks are started in submission order, each once; what is queued is
   exactly what was not started yet. *)
Theorem C47_tasks_start_in_submission_order :
  forall (n : nat) (s : state), reachable n s -> accepted s = began s ++ tasks s.
Proof. exact fifo. Qed.
Print Assumptions C47_tasks_start_in_submission_order.

(* C47: a started task is in progress on a worker or has ended, exactly once. *)
Theorem C47_started_once :
  forall (n : nat) (s : state), reachable n s -> Permutation (began s) (in_progress s ++ ended s).
Proof. exact progress. Qed.
Print Assumptions C47_started_once.

(* C47: when all worker threads have exited (the joins in the destructor
   return), every accepted task has run to its end. *)
Theorem C47_destructor_runs_everything :
  forall (n : nat) (s : state), n > 0 -> reachable n s -> all_exited s ->
    began s = accepted s /\ Permutation (ended s) (accepted s).
Proof. exact exited_all. Qed.
Print Assumptions C47_destructor_runs_everything.
Example C47_destructor_example :
  exists s, run (init 2) [Enqueue 4 9; Enter 0; Enqueue 5 9; StopAll; Enter 1; Finish 1 false; Enter 1; Finish 0 false; Enter 0] = Some s /\
    all_exited s /\ ended s = [5; 4].
Proof. eexists. split; [vm_compute; reflexivity|]. split; [repeat constructor|reflexivity]. Qed.

(* C47: no wake-up is lost: with a queued task some worker can make a step, even
   if no condition variable ever wakes up again. *)
Theorem C47_no_lost_wakeup :
  forall (n : nat) (s : state), n > 0 -> reachable n s -> crashed s = false -> tasks s <> [] ->
    exists x s', own_step x = true /\ step s x = Some s'.
Proof. exact no_lost_wakeup. Qed.
Print Assumptions C47_no_lost_wakeup.

(* C47: left alone, with tasks that return, the workers come to rest after a
   bounded number of steps, every accepted task has then run, and after stop
   all workers have exited. *)
Theorem C47_workers_drain_the_queue :
  forall (n : nat) (s : state), n > 0 -> reachable n s -> crashed s = false ->
  exists bound, forall xs s', Forall (fun x => own_step x = true) xs -> run s xs = Some s' ->
    length xs <= bound /\
    ((forall x, own_step x = true -> step s' x = None) ->
     began s' = accepted s /\ Permutation (ended s') (accepted s) /\ (stop s = true -> all_exited s')).
Proof. intros n s Hn R C. exists (measure s). intros xs s' F H. eapply drains; eassumption. Qed.
Print Assumptions C47_workers_drain_the_queue.

(* C47: a pool of zero threads accepts tasks and its destructor returns without
   running them. *)
Theorem C47_zero_threads_refuted :
  exists s, reachable 0 s /\ stop s = true /\ crashed s = false /\ all_exited s /\ accepted s = [5] /\ began s = [].
Proof. eexists. split; [exists [Enqueue 5 0; StopAll]; reflexivity|]. repeat split. constructor. Qed.
Print Assumptions C47_zero_threads_refuted.

(* C47: a task that throws, or a task submitted while the pool stops, makes the
   pool use its logger, which is null. *)
Theorem C47_throwing_task_refuted :
  exists s, reachable 1 s /\ stop s = false /\ crashed s = true.
Proof. eexists. split; [exists [Enqueue 5 0; Enter 0; Finish 0 true]; reflexivity|]. repeat split. Qed.
Print Assumptions C47_throwing_task_refuted.
