(* Debug builds of the actor library: the assertions that watch over the life of
   an actor, on top of MailboxModel (one mailbox on the dynamic executor) and of
   FlowModel (the tree of actors).
     actor_system.cpp:293   YATO_ENSURES(scheduled) after a system message was queued
     actor_cell.cpp:44      assert(child->m_parent == nullptr) in add_child
     actor_cell.cpp:56      assert(it != m_children.end()) in remove_child
     root.cpp:111           YATO_ASSERT(false, "Unknown root message!")
   (all below /repo/modules/actors/yato/actors/private).  A failed assertion ends
   the program (/repo/include/yato/assertion.h:100-106): it is an outcome of its
   own.  The assertions on m_context, m_mailbox and the pointers handed from one
   function of the library to the next are left out: these are set where the
   objects are made. *)
From Coq Require Import List Bool Arith.
From Verif Require Import MailboxModel TreeModel FlowModel.
Import ListNotations.

Inductive failed := NotScheduled | HasParent | NoChild | UnknownRootMessage.
Inductive outcome (S : Type) := Next (s : S) | Abort (w : failed) | Stuck.
Arguments Next {S}. Arguments Abort {S}. Arguments Stuck {S}.

(* ---- one mailbox ---- *)
Section Box.
Variable A : Type.
Variable throughput : nat.

(* MailboxModel counts the senders that were told to schedule; here they are kept
   apart, with the assertion of send_system_impl_ (true) or without (tell, stop,
   watch, unwatch: actor_system.cpp:269-271, 321-323, 370-372, 389-391). *)
Record dbox := DBox {
  box : MailboxModel.state A;
  waiters : list bool
}.
Definition dinit : dbox := DBox (MailboxModel.init A) [].

Inductive dsend :=
| DSend (checked : bool) (k : kind) (m : msg A)  (* first half of a send *)
| DSchedule (i : nat)                           (* second half, by the i-th of the waiting senders *)
| DStep (x : MailboxModel.action A).            (* the executor *)

Fixpoint drop_nth {B} (i : nat) (l : list B) : list B :=
  match l, i with
  | [], _ => []
  | _ :: t, 0 => t
  | y :: t, S i' => y :: drop_nth i' t
  end.

Definition from_executor (x : MailboxModel.action A) : bool :=
  match x with Send _ _ | SenderSchedules => false | _ => true end.

(* actor_system.cpp:254-295 *)
Definition dstep (d : dbox) (x : dsend) : outcome dbox :=
  match x with
  | DSend checked k m =>
      if checked && match k with User => true | Sys => false end then Stuck else
      let b := enqueue A k m (box d) in
      (* need_process, mailbox.cpp:42-46, 61-65 *)
      let need := is_open (box d) && negb (scheduled (box d)) in
      Next (DBox b (if need then waiters d ++ [checked] else waiters d))
  | DSchedule i =>
      match nth_error (waiters d) i, MailboxModel.step A throughput (box d) SenderSchedules with
      | Some checked, Some b =>
          (* schedule_for_execution returns m_is_scheduled, mailbox.cpp:87 *)
          if checked && negb (scheduled b) then Abort NotScheduled
          else Next (DBox b (drop_nth i (waiters d)))
      | _, _ => Stuck
      end
  | DStep y =>
      if from_executor y then
        match MailboxModel.step A throughput (box d) y with
        | Some b => Next (DBox b (waiters d))
        | None => Stuck
        end
      else Stuck
  end.
Fixpoint drun (d : dbox) (xs : list dsend) : outcome dbox :=
  match xs with
  | [] => Next d
  | x :: t => match dstep d x with Next d' => drun d' t | r => r end
  end.
(* the same step of a release build *)
Definition released (x : dsend) : MailboxModel.action A :=
  match x with DSend _ k m => Send k m | DSchedule _ => SenderSchedules | DStep y => y end.
End Box.
Arguments DBox {A}. Arguments box {A}. Arguments waiters {A}.
Arguments DSend {A}. Arguments DSchedule {A}. Arguments DStep {A}.

(* ---- the tree ---- *)
(* the assertions met by the handler of actor a for its next message *)
Definition asserts_sys (s : TreeModel.state) (a : nat) (m : smsg) : option failed :=
  match m with
  | SAttach c =>                       (* actor.cpp:223-231, actor_cell.cpp:44 *)
      if stopping (nd s a) then None else if att (nd s c) then Some HasParent else None
  | SDetach c =>                       (* actor.cpp:234-235, actor_cell.cpp:55-56 *)
      if existsb (Nat.eqb c) (kids (nd s a)) then None else Some NoChild
  | _ => None
  end.
Definition asserts_usr (a : nat) (u : umsg) : option failed :=
  match u with
  | UOther => if a =? 0 then Some UnknownRootMessage else None   (* root.cpp:110-113 *)
  | _ => None
  end.
Definition asserts (f : fstate) (x : faction) : option failed :=
  match x with
  | FHandle a _ =>
      match sysq (nd (base f) a), usrq (nd (base f) a) with
      | m :: _, _ => asserts_sys (base f) a m
      | [], u :: _ => asserts_usr a u
      | [], [] => None
      end
  | _ => None
  end.
Definition dfstep (f : fstate) (x : faction) : outcome fstate :=
  match fstep f x with
  | None => Stuck
  | Some f' => match asserts f x with Some w => Abort w | None => Next f' end
  end.
Fixpoint dfrun (f : fstate) (xs : list faction) : outcome fstate :=
  match xs with
  | [] => Next f
  | x :: t => match dfstep f x with Next f' => dfrun f' t | r => r end
  end.

(* ---- specification vocabulary ---- *)
(* nobody sends the root a message of their own *)
Definition spares_the_root (x : faction) : bool := match x with FEnv (SendUser 0 false) => false | _ => true end.
