(* Property theorems for the life of one actor: C43, C45, C53.
   [reachable] ranges over every interleaving of senders, workers and of the
   parent destroying the cell. *)
From Coq Require Import List Bool Arith.
From Verif Require Import MailboxModel ActorModel ActorProofs.
Import ListNotations.

Definition sy (m : amsg) : action := ASend Sys (Msg 0 m).
Definition us (n : nat) : action := ASend User (Msg 1 (MUser n)).

(* start, two messages, watch by 7 and 8, unwatch of 8, poison pill *)
Definition life : list action :=
  [ us 10; ASenderSchedules; sy MStart; ASenderSchedules; AWorkerStarts; APop 0; ASysDone 0 true;
    us 11; sy (MWatch 7); sy (MWatch 8); sy (MWatch 7); sy (MUnwatch 8);
    APop 0; ASysDone 0 true; APop 0; ASysDone 0 true; APop 0; ASysDone 0 true; APop 0; ASysDone 0 true;
    APop 0; AUserDone 0; ASend User (Msg 2 MPoison); APop 0; AUserDone 0; us 12; APop 0; AUserDone 0;
    APop 0; ASysDone 0 true ].

Example life_example :
  exists s, run 10 init life = Some s /\
    cbs s = [PreStart true; Receive 10; Receive 11; PostStop; TellTerminated 7; TellDetach] /\
    starts_sent s = 1 /\ is_open (mb s) = true /\ pending (mb s) = 0 /\
    exists s', step 10 s (AClose 0) = Some s'.
Proof.
  eexists. split; [vm_compute; reflexivity|]. split; [vm_compute; reflexivity|].
  split; [vm_compute; reflexivity|]. split; [vm_compute; reflexivity|]. split; [vm_compute; reflexivity|].
  eexists. vm_compute. reflexivity.
Qed.

(* C43: when receive() is called, pre_start() has returned once and post_stop()
   has not been called.  The framework sends start once, when the parent
   attaches the actor (actor.cpp:230). *)
Theorem C43_messages_only_between_start_and_stop :
  forall (throughput : nat) (s : state) (pre : list cb) (n : nat) (post : list cb),
    reachable throughput s -> starts_sent s <= 1 -> cbs s = pre ++ Receive n :: post ->
    count is_prestart_ok pre = 1 /\ count is_poststop pre = 0.
Proof. exact receive_between. Qed.
Print Assumptions C43_messages_only_between_start_and_stop.

(* C43: pre_start and post_stop run at most once. *)
Theorem C43_post_stop_at_most_once :
  forall (throughput : nat) (s : state), reachable throughput s -> starts_sent s <= 1 ->
    count is_prestart (cbs s) <= 1 /\ count is_poststop (cbs s) <= 1.
Proof. exact poststop_once. Qed.
Print Assumptions C43_post_stop_at_most_once.

(* C43: whenever the actor stops (its mailbox is closed), post_stop has run if
   and only if pre_start had succeeded. *)
Theorem C43_post_stop_exactly_once_if_started :
  forall (throughput : nat) (s : state) (a : nat) (s' : state),
    reachable throughput s -> starts_sent s <= 1 -> step throughput s (AClose a) = Some s' ->
    cbs s' = cbs s /\ count is_poststop (cbs s') = count is_prestart_ok (cbs s').
Proof. exact close_life. Qed.
Print Assumptions C43_post_stop_exactly_once_if_started.

(* C43: after the stop nothing happens any more, provided no sender was between
   its two steps when the mailbox closed. *)
Theorem C43_stopped_for_good :
  forall (throughput : nat) (s : state) (a : nat) (s' : state) (xs : list action) (s'' : state),
    reachable throughput s -> step throughput s (AClose a) = Some s' -> pending (mb s) = 0 ->
    run throughput s' xs = Some s'' -> cbs s'' = cbs s'.
Proof. exact close_quiet. Qed.
Print Assumptions C43_stopped_for_good.

(* C43, the proviso is needed: a sender that enqueued start while the mailbox
   was idle and schedules it after the close brings a stopped actor to life. *)
Definition revived : list action :=
  [ sy MStop; sy MStart; ASenderSchedules; AWorkerStarts; APop 0; ASysDone 0 true; AClose 0;
    ASenderSchedules; AWorkerStarts; APop 1; ASysDone 1 true ].
Theorem C43_start_after_stop_refuted :
  exists s, reachable 10 s /\ starts_sent s = 1 /\ is_open (mb s) = false /\
    cbs s = [TellDetach; PreStart true] /\ started (mb s) = true.
Proof.
  eexists. split; [exists revived; vm_compute; reflexivity|].
  split; [vm_compute; reflexivity|]. split; [vm_compute; reflexivity|]. split; vm_compute; reflexivity.
Qed.
Print Assumptions C43_start_after_stop_refuted.

(* C45: nobody is told before the actor stops. *)
Theorem C45_not_told_before_the_stop :
  forall (throughput : nat) (s : state) (w : nat),
    reachable throughput s -> is_open (mb s) = true -> ~ closing s ->
    count (is_terminated_for w) (cbs s) = 0.
Proof. exact told_nothing_before. Qed.
Print Assumptions C45_not_told_before_the_stop.
Example C45_not_told_example :
  exists s, run 10 init (firstn 20 life) = Some s /\ is_open (mb s) = true /\ ~ closing s /\ watchers (cel s) = [7].
Proof.
  eexists. split; [vm_compute; reflexivity|]. split; [vm_compute; reflexivity|]. split; [|vm_compute; reflexivity].
  intros [a H]. vm_compute in H. destruct H as [H|[]]. discriminate.
Qed.

(* C45: when the actor stops, w is told exactly once if the last request of w
   that was handled is watch, and not at all otherwise. *)
Theorem C45_told_exactly_once :
  forall (throughput : nat) (s : state) (a : nat) (s' : state) (w : nat),
    reachable throughput s -> is_open (mb s) = true -> step throughput s (AClose a) = Some s' ->
    ~ In (PreStart false) (cbs s') ->
    count (is_terminated_for w) (cbs s') =
      if watching w (handled_of amsg Sys (log (mb s'))) then 1 else 0.
Proof. exact close_watch. Qed.
Print Assumptions C45_told_exactly_once.
Example C45_told_example :
  exists s s', run 10 init life = Some s /\ step 10 s (AClose 0) = Some s' /\
    watching 7 (handled_of amsg Sys (log (mb s'))) = true /\ watching 8 (handled_of amsg Sys (log (mb s'))) = false /\
    ~ In (PreStart false) (cbs s').
Proof.
  do 2 eexists. split; [vm_compute; reflexivity|]. split; [vm_compute; reflexivity|].
  split; [vm_compute; reflexivity|]. split; [vm_compute; reflexivity|].
  vm_compute. intros H. repeat (destruct H as [H|H]; [discriminate|]). exact H.
Qed.

(* C45 for the whole life fails: two stop requests, one of them scheduled late,
   and the watcher is told twice. *)
Definition told_twice : list action :=
  [ sy (MWatch 7); sy MStop; sy MStop; ASenderSchedules; AWorkerStarts;
    APop 0; ASysDone 0 true; APop 0; ASysDone 0 true; AClose 0;
    ASenderSchedules; AWorkerStarts; APop 1; ASysDone 1 true; AClose 1 ].
Theorem C45_told_twice_refuted :
  exists s, reachable 10 s /\ count (is_terminated_for 7) (cbs s) = 2.
Proof. eexists. split; [exists told_twice; vm_compute; reflexivity|]. vm_compute. reflexivity. Qed.
Print Assumptions C45_told_twice_refuted.

(* C45: watch accepted by the mailbox behind a stop is never answered. *)
Definition watched_too_late : list action :=
  [ sy MStart; ASenderSchedules; sy MStop; sy (MWatch 7); AWorkerStarts;
    APop 0; ASysDone 0 true; APop 0; ASysDone 0 true; AClose 0 ].
Theorem C45_watch_behind_stop_refuted :
  exists s, reachable 10 s /\ pending (mb s) = 0 /\ queued (mb s) = 0 /\ acts (mb s) = [] /\
    In (Msg 0 (MWatch 7)) (accepted_of amsg Sys (log (mb s))) /\
    count is_poststop (cbs s) = 1 /\ count (is_terminated_for 7) (cbs s) = 0.
Proof.
  eexists. split; [exists watched_too_late; vm_compute; reflexivity|]. vm_compute. repeat split. right. right. now left.
Qed.
Print Assumptions C45_watch_behind_stop_refuted.

(* C45: an actor whose pre_start fails stops without telling its watchers. *)
Definition failed_start : list action :=
  [ sy (MWatch 7); ASenderSchedules; sy MStart; AWorkerStarts;
    APop 0; ASysDone 0 true; APop 0; ASysDone 0 false; AClose 0 ].
Theorem C45_failed_start_tells_nobody_refuted :
  exists s, reachable 10 s /\ is_open (mb s) = false /\ pending (mb s) = 0 /\ queued (mb s) = 0 /\ acts (mb s) = [] /\
    handled_of amsg Sys (log (mb s)) = sent_of amsg Sys (sent (mb s)) /\
    watching 7 (handled_of amsg Sys (log (mb s))) = true /\ cbs s = [PreStart false].
Proof. eexists. split; [exists failed_start; vm_compute; reflexivity|]. vm_compute. repeat split. Qed.
Print Assumptions C45_failed_start_tells_nobody_refuted.

(* C44 for one actor: when it stops, every child it accepted has reported its own
   end; and after a request to stop was handled it accepts no further child. *)
Theorem C44_waits_for_children :
  forall (throughput : nat) (s : state) (a : nat) (s' : state) (k : nat),
    reachable throughput s -> is_open (mb s) = true -> step throughput s (AClose a) = Some s' ->
    ~ In (PreStart false) (cbs s') ->
    count (starts_child k) (cbs s') <= count (child_ended k) (handled_of amsg Sys (log (mb s'))).
Proof. exact close_children. Qed.
Print Assumptions C44_waits_for_children.
Theorem C44_no_child_while_stopping :
  forall (throughput : nat) (s : state) (x : action) (s' : state) (l : list (msg amsg)) (m : msg amsg) (k : nat),
    reachable throughput s -> is_open (mb s) = true ->
    handled_of amsg Sys (log (mb s)) = l ++ [m] -> existsb is_stop_request l = true ->
    step throughput s x = Some s' ->
    count (starts_child k) (cbs s') = count (starts_child k) (cbs s).
Proof. exact no_child_while_stopping. Qed.
Print Assumptions C44_no_child_while_stopping.
(* children 5 and 6; a stop request; 7 comes too late; 5 and 6 report *)
Definition family : list action :=
  [ sy MStart; ASenderSchedules; sy (MAttach 5); sy (MAttach 6); sy MStop; sy (MAttach 7); sy (MDetach 6); sy (MDetach 5);
    AWorkerStarts; APop 0; ASysDone 0 true; APop 0; ASysDone 0 true; APop 0; ASysDone 0 true; APop 0; ASysDone 0 true;
    APop 0; ASysDone 0 true; APop 0; ASysDone 0 true; APop 0; ASysDone 0 true ].
Example C44_family_example :
  exists s s', run 10 init family = Some s /\ is_open (mb s) = true /\ step 10 s (AClose 0) = Some s' /\
    cbs s' = [PreStart true; TellStart 5; TellStart 6; TellPoison 5; TellPoison 6; PostStop; TellDetach].
Proof.
  do 2 eexists. split; [vm_compute; reflexivity|]. split; [vm_compute; reflexivity|].
  split; vm_compute; reflexivity.
Qed.
Example C44_late_child_example :
  exists s s' l, run 10 init (firstn 18 family) = Some s /\ is_open (mb s) = true /\
    handled_of amsg Sys (log (mb s)) = l ++ [Msg 0 (MAttach 7)] /\ existsb is_stop_request l = true /\
    step 10 s (ASysDone 0 true) = Some s'.
Proof.
  do 2 eexists. exists [Msg 0 MStart; Msg 0 (MAttach 5); Msg 0 (MAttach 6); Msg 0 MStop].
  split; [vm_compute; reflexivity|]. split; [vm_compute; reflexivity|].
  split; [vm_compute; reflexivity|]. split; [vm_compute; reflexivity|]. vm_compute. reflexivity.
Qed.

(* C53: if the parent destroys the cell only when no sender and no worker is
   inside the mailbox, no thread ever touches the destroyed cell. *)
Theorem C53_quiet_destruction_is_safe :
  forall (throughput : nat) (xs : list action) (s : state),
    destroys_only_when_quiet throughput init xs -> run throughput init xs = Some s -> ub s = false.
Proof. exact quiet_destroy_safe. Qed.
Print Assumptions C53_quiet_destruction_is_safe.
Example C53_quiet_example :
  exists s, run 10 init (life ++ [ADestroy; us 13; AClose 0; us 14]) = Some s /\ destroyed s = true /\
    destroys_only_when_quiet 10 init (life ++ [ADestroy; us 13; AClose 0; us 14]).
Proof.
  eexists. split; [vm_compute; reflexivity|]. split; [vm_compute; reflexivity|].
  vm_compute. repeat split; try discriminate. intros a p [H|[]]. inversion H. reflexivity.
Qed.

(* C53: nothing in the code ensures that.  A sender that has enqueued and not
   yet scheduled reads the cell after the parent destroyed it. *)
Definition use_after_free : list action :=
  [ sy MStart; sy MStop; ASenderSchedules; AWorkerStarts; APop 0; ASysDone 0 true; APop 0; ASysDone 0 true;
    AClose 0; ADestroy; ASenderSchedules ].
Theorem C53_late_sender_refuted : exists s, reachable 10 s /\ ub s = true.
Proof. eexists. split; [exists use_after_free; vm_compute; reflexivity|]. reflexivity. Qed.
Print Assumptions C53_late_sender_refuted.
