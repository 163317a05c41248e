(* C101: debug builds of the actor library. *)
From Coq Require Import List Bool Arith Lia.
From Verif Require Import MailboxModel TreeModel FlowModel DactModel DactProofs.
From Verif Require ActorModel PinModel.
Import ListNotations.

(* C101: up to the moment an assertion fails, a debug build is a release build:
   what C39 to C42 say holds in it. *)
Theorem C101_debug_is_release :
  forall (A : Type) (tp : nat) (xs : list (dsend A)) (d : dbox A), drun A tp (dinit A) xs = Next d ->
    MailboxModel.run A tp (MailboxModel.init A) (map (released A) xs) = Some (box d) /\ pending (box d) = length (waiters d).
Proof. intros A tp xs d H. exact (drun_release A tp xs (dinit A) d H eq_refl). Qed.
Print Assumptions C101_debug_is_release.

(* C101: the assertion after the sending of a system message fails exactly when
   the mailbox is idle and has nothing left to process: somebody else has had it
   executed, with the message in it, before this sender came to schedule it. *)
Theorem C101_fails_exactly_when :
  forall (A : Type) (tp : nat) (xs : list (dsend A)) (d : dbox A) (i : nat), drun A tp (dinit A) xs = Next d ->
    (dstep A tp d (DSchedule i) = Abort NotScheduled <->
     nth_error (waiters d) i = Some true /\ scheduled (box d) = false /\ sys (box d) = [] /\
     (usr (box d) = [] \/ MailboxModel.started (box d) = false \/ is_open (box d) = false)).
Proof. exact abort_exactly. Qed.
Print Assumptions C101_fails_exactly_when.

(* C101: so a program is ended by it only if two senders were at some moment
   between the queueing of their message and the scheduling of the mailbox. *)
Theorem C101_needs_two_senders :
  forall (A : Type) (tp : nat) (xs : list (dsend A)) (w : failed), drun A tp (dinit A) xs = Abort w ->
    exists ys zs d, xs = ys ++ zs /\ drun A tp (dinit A) ys = Next d /\ length (waiters d) >= 2.
Proof. exact one_at_a_time. Qed.
Print Assumptions C101_needs_two_senders.

(* C101: the assertions of add_child and remove_child hold in every execution of
   the tree of actors in which the handlers overlap: nobody is attached twice and
   everybody who is detached is there.  The only assertion that can fail is the
   one about a message to the root that the root does not know; ... *)
Theorem C101_children_are_there :
  forall (xs : list faction) (w : failed), dfrun finit xs = Abort w -> w = UnknownRootMessage.
Proof. intros xs w H. exact (dfrun_abort xs [] finit w eq_refl H). Qed.
Print Assumptions C101_children_are_there.
(* ... and if nobody sends such a message debug and release builds do the same. *)
Theorem C101_tree_as_released :
  forall (xs : list faction) (f : fstate), ~ In (FEnv (SendUser 0 false)) xs ->
    (dfrun finit xs = Next f <-> frun finit xs = Some f).
Proof.
  intros xs f N. split; [exact (dfrun_next xs [] finit f eq_refl)|].
  apply (dfrun_spared xs [] finit f eq_refl spared_init). apply forallb_forall. intros x Hx.
  destruct x as [| |y]; try reflexivity. destruct y; try reflexivity.
  match goal with |- spares_the_root (FEnv (SendUser ?a ?b)) = true => destruct a; [destruct b|]; try reflexivity end.
  destruct (N Hx).
Qed.
Print Assumptions C101_tree_as_released.
(* The assertions of add_child and remove_child do watch: in any state, reachable
   or not, an actor that goes on to attach somebody who has a parent, or to detach
   somebody who is not its child, ends the program, and nothing else does it with
   these assertions. *)
Theorem C101_children_watched :
  forall (f f' : fstate) (a : nat) (ok : bool), fstep f (FHandle a ok) = Some f' ->
    (dfstep f (FHandle a ok) = Abort HasParent <->
     exists c t, sysq (nd (base f) a) = SAttach c :: t /\ stopping (nd (base f) a) = false /\ att (nd (base f) c) = true) /\
    (dfstep f (FHandle a ok) = Abort NoChild <->
     exists c t, sysq (nd (base f) a) = SDetach c :: t /\ ~ In c (kids (nd (base f) a))).
Proof.
  intros f f' a ok E. unfold dfstep. rewrite E. unfold asserts, asserts_sys, asserts_usr.
  destruct (sysq (nd (base f) a)) as [|m t].
  - split; split.
    + destruct (usrq (nd (base f) a)) as [|[]]; try discriminate; destruct (a =? 0); discriminate.
    + intros (c & t & H & _). discriminate.
    + destruct (usrq (nd (base f) a)) as [|[]]; try discriminate; destruct (a =? 0); discriminate.
    + intros (c & t & H & _). discriminate.
  - destruct m as [| | |c|c]; (split; split; [try discriminate|intros (c0 & t0 & H & H1); try discriminate|try discriminate|intros (c0 & t0 & H & H1); try discriminate]).
    + destruct (stopping (nd (base f) a)) eqn:S1; [discriminate|]. destruct (att (nd (base f) c)) eqn:A1; [|discriminate].
      intros _. exists c, t. auto.
    + injection H as -> ->. destruct H1 as [-> ->]. reflexivity.
    + destruct (stopping (nd (base f) a)); [discriminate|]. destruct (att (nd (base f) c)); discriminate.
    + destruct (existsb (Nat.eqb c) (kids (nd (base f) a))); discriminate.
    + destruct (existsb (Nat.eqb c) (kids (nd (base f) a))) eqn:X; [discriminate|]. intros _. exists c, t. split; [reflexivity|].
      intros Hc. assert (Y : existsb (Nat.eqb c) (kids (nd (base f) a)) = true) by (apply existsb_exists; exists c; split; [exact Hc|apply Nat.eqb_refl]).
      congruence.
    + injection H as -> ->. destruct (existsb (Nat.eqb c0) (kids (nd (base f) a))) eqn:X; [|reflexivity].
      apply existsb_exists in X as (y & Hy & Ey). apply Nat.eqb_eq in Ey. subst y. destruct (H1 Hy).
Qed.
Print Assumptions C101_children_watched.
(* a state that no execution reaches: the user guardian is told to detach a
   stranger *)
Definition c101_stranger : fstate := FState (push_sys (base finit) 3 (SDetach 9)) (todo finit) (told finit).
Example C101_example_watched :
  (exists f', fstep (FState (pop_sys (base c101_stranger) 3) (todo finit) (told finit)) (FHandle 3 true) = Some f') /\
  dfstep (FState (pop_sys (base c101_stranger) 3) (todo finit) (told finit)) (FHandle 3 true) = Abort NoChild.
Proof. split; [eexists|]; vm_compute; reflexivity. Qed.

(* ---- examples ---- *)
Definition m1 : msg nat := Msg 1 7.
Definition m2 : msg nat := Msg 2 0.
(* two senders, and nothing fails: the second one finds the mailbox scheduled *)
Example C101_example_two_senders :
  exists d, drun nat 10 (dinit nat) [DSend false User m1; DSend true Sys m2; DSchedule 0; DSchedule 0] = Next d /\ scheduled (box d) = true /\ waiters d = [].
Proof. eexists. split; [vm_compute; reflexivity|]. split; reflexivity. Qed.
Example C101_example_one_sender :
  exists d, drun nat 10 (dinit nat) [DSend true Sys m2; DSchedule 0; DStep WorkerStarts; DStep (Pop 0); DStep (SysDone 0 false true); DStep (Pop 0); DStep (Reschedule 0); DSend false User m1; DSchedule 0] = Next d
    /\ scheduled (box d) = true.
Proof. eexists. split; [vm_compute; reflexivity|]. reflexivity. Qed.

(* C101: "auto a = system.create_actor<T>(...); a.tell(...);" can end a debug
   build.  The parent has queued the start of the new actor when the creator's
   tell schedules the mailbox; a worker handles both; then the parent's
   schedule_for_execution has nothing to schedule. *)
Definition create_then_tell : list (dsend nat) :=
  [DSend true Sys m2;            (* start, from the handler of the parent *)
   DSend false User m1;          (* tell, from the creator *)
   DSchedule 1;                  (* the creator schedules *)
   DStep WorkerStarts; DStep (Pop 0); DStep (SysDone 0 false true);
   DStep (Pop 0); DStep (UserDone 0); DStep (Pop 0); DStep (Reschedule 0);
   DSchedule 0].                 (* the parent schedules *)
Theorem C101_create_then_tell_refuted :
  exists xs, drun nat 10 (dinit nat) xs = Abort NotScheduled /\
    map (released nat) xs = [Send Sys m2; Send User m1; SenderSchedules; WorkerStarts; Pop 0; SysDone 0 false true; Pop 0; UserDone 0; Pop 0; Reschedule 0; SenderSchedules].
Proof. exists create_then_tell. split; vm_compute; reflexivity. Qed.
Print Assumptions C101_create_then_tell_refuted.

(* C101: on a pinned executor that has no thread left one sender is enough: the
   start of a new actor is queued, execute() refuses, and m_is_scheduled, which
   the assertion looks at, is false. *)
Theorem C101_pinned_refuted :
  exists limit xs (s s' : PinModel.state nat), PinModel.run nat (PinModel.init nat limit) xs = Some s /\
    PinModel.pending s = 1 /\ PinModel.sys s <> [] /\
    PinModel.step nat s (PinModel.SenderSchedules nat) = Some s' /\ PinModel.scheduled s' = false.
Proof.
  exists 1, [PinModel.OtherMailbox nat; PinModel.Send nat PinModel.Sys 0 0]. eexists. eexists. split; [vm_compute; reflexivity|].
  split; [reflexivity|]. split; [discriminate|]. split; vm_compute; reflexivity.
Qed.
Print Assumptions C101_pinned_refuted.

(* C101: remove_child's assertion fails for a parent whose child was stopped by
   two senders at once: a release build's child tells its parent twice that it has
   ended (see C45_told_twice_refuted), and the second time it is not there. *)
Theorem C101_detach_twice_refuted :
  exists s, ActorModel.reachable 10 s /\ ActorModel.destroyed s = false /\ ActorModel.ub s = false /\
    ActorModel.count ActorModel.is_detach (ActorModel.cbs s) = 2 /\
    forall p st k ok, NoDup (ActorModel.kids p) ->
      let '(p1, _, _, _) := ActorModel.handle p st (ActorModel.MDetach k) ok in ~ In k (ActorModel.kids p1).
Proof.
  eexists. split.
  - exists [ActorModel.ASend Sys (Msg 1 ActorModel.MStop); ActorModel.ASend Sys (Msg 2 ActorModel.MStop); ActorModel.ASenderSchedules; ActorModel.AWorkerStarts;
      ActorModel.APop 0; ActorModel.ASysDone 0 true; ActorModel.AClose 0; ActorModel.ASenderSchedules; ActorModel.AWorkerStarts; ActorModel.APop 1; ActorModel.ASysDone 1 true].
    vm_compute. reflexivity.
  - repeat split; try reflexivity. intros p st k ok N. cbn [ActorModel.handle]. cbv zeta.
    assert (X : ~ In k (ActorModel.remove_first k (ActorModel.kids p))).
    { induction N as [|x l Hx N IH]; simpl; [tauto|]. destruct (Nat.eqb_spec x k) as [->|]; [exact Hx|]. simpl. intros [->|H]; auto. }
    destruct (_ && _); exact X.
Qed.
Print Assumptions C101_detach_twice_refuted.

(* C101: any program can end a debug build by sending the root a message. *)
Theorem C101_root_message_refuted :
  exists xs, dfrun finit xs = Abort UnknownRootMessage /\ exists f, frun finit xs = Some f.
Proof. exists [FEnv (SendUser 0 false); FHandle 0 true]. split; [vm_compute; reflexivity|]. eexists. vm_compute. reflexivity. Qed.
Print Assumptions C101_root_message_refuted.

(* a tree that grows and is stopped, with overlapping handlers: 5 below the user
   guardian, its detach_child handled while its thread has not closed its mailbox *)
Definition grow_and_stop : list faction :=
  [FHandle 3 true; FEnv (CreateTop 3); FHandle 0 true; FEmit 0; FHandle 3 true; FEmit 3; FHandle 5 true; FEnv (SendStop 5); FHandle 5 true; FEmit 5; FHandle 3 true].
Example C101_example_tree :
  exists f, dfrun finit grow_and_stop = Next f /\ ~ In (FEnv (SendUser 0 false)) grow_and_stop /\
    att (nd (base f) 5) = true /\ kids (nd (base f) 3) = [] /\ todo f 5 = [EClose; ENotify].
Proof.
  eexists. split; [vm_compute; reflexivity|]. split; [cbn; intuition discriminate|]. vm_compute. repeat split.
Qed.
