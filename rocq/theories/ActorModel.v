(* Model of one actor: its cell (/repo/modules/actors/yato/actors/private/
   actor_cell.{h,cpp}), its handlers (private/actor.cpp) and its mailbox
   (MailboxModel).  The mailbox steps are those of MailboxModel; the reaction to
   a system message, free there, is computed here from actor.cpp.

   Actors are numbers (an actor_ref compares by path, actor_ref.h:118-121).
   Simplifications: logging is left out; the selection message is modelled in
   TreeModel; what user code does inside receive() (sending, become) appears as
   separate Send steps while the message is being handled; the has_parent()
   test of stop_impl (actor.cpp:156) is taken to hold (see TreeModel for actors
   that are not attached yet). *)
From Coq Require Import List Bool Arith.
From Verif Require Import MailboxModel.
Import ListNotations.

(* system_message.h:22-111 and the user payloads *)
Inductive amsg :=
| MStart | MStop | MStopAfterChildren
| MWatch (w : nat) | MUnwatch (w : nat)
| MAttach (c : nat) | MDetach (c : nat)
| MUser (n : nat) | MPoison.

Definition is_user_payload (m : amsg) : bool := match m with MUser _ | MPoison => true | _ => false end.

(* observable callbacks and sends of the actor, in order *)
Inductive cb :=
| PreStart (ok : bool)       (* pre_start() returned / threw *)
| PostStop                   (* post_stop() was called *)
| Receive (n : nat)          (* receive() was called with a user message *)
| TellTerminated (w : nat)   (* terminated sent to watcher w *)
| TellDetach                 (* detach_child sent to the parent *)
| TellStart (c : nat)        (* start sent to a new child *)
| TellPoison (c : nat).      (* poison_pill sent to a child *)

Record cell := Cell {
  kids : list nat;           (* actor_cell.h:74 *)
  watchers : list nat;       (* actor_cell.h:68 *)
  stopping : bool            (* actor_cell.h:63 *)
}.

(* actor.cpp:134-159 : callbacks; started becomes false *)
Definition stop_impl (c : cell) (started : bool) : list cb :=
  (if started then [PostStop] else []) ++ map TellTerminated (watchers c) ++ [TellDetach].

Fixpoint remove_first (x : nat) (l : list nat) : list nat :=
  match l with
  | [] => []
  | y :: t => if y =? x then t else y :: remove_first x t
  end.

(* actor.cpp:161-271 : new cell, callbacks, request_stop?, new started flag.
   [ok] says whether pre_start() returns normally. *)
Definition handle (c : cell) (started : bool) (m : amsg) (ok : bool) : cell * list cb * bool * bool :=
  match m with
  | MStart => (c, [PreStart ok], negb ok, ok)                          (* 166-185 *)
  | MStop =>                                                           (* 186-198 *)
      match kids c with
      | [] => (c, stop_impl c started, true, false)
      | _ => (Cell (kids c) (watchers c) true, map TellPoison (kids c), false, started)
      end
  | MStopAfterChildren =>                                              (* 199-206 *)
      match kids c with
      | [] => (c, stop_impl c started, true, false)
      | _ => (Cell (kids c) (watchers c) true, [], false, started)
      end
  | MWatch w =>                                                        (* 207-214 *)
      (Cell (kids c) (if existsb (Nat.eqb w) (watchers c) then watchers c else watchers c ++ [w]) (stopping c),
       [], false, started)
  | MUnwatch w =>                                                      (* 215-222 *)
      (Cell (kids c) (remove_first w (watchers c)) (stopping c), [], false, started)
  | MAttach k =>                                                       (* 223-233 *)
      if stopping c then (c, [], false, started)
      else (Cell (kids c ++ [k]) (watchers c) (stopping c), [TellStart k], false, started)
  | MDetach k =>                                                       (* 234-242 *)
      let c' := Cell (remove_first k (kids c)) (watchers c) (stopping c) in
      if stopping c && match kids c' with [] => true | _ => false end
      then (c', stop_impl c' started, true, false)
      else (c', [], false, started)
  | MUser _ | MPoison => (c, [], false, started)                       (* 265-269, never sent *)
  end.

Record state := AState {
  mb : MailboxModel.state amsg;
  cel : cell;
  cbs : list cb;            (* ghost: callbacks so far *)
  destroyed : bool;         (* the parent has destroyed the cell, actor_cell.cpp:58 *)
  ub : bool                 (* a destroyed cell was accessed *)
}.
Definition init : state := AState (MailboxModel.init amsg) (Cell [] [] false) [] false false.

Inductive action :=
| ASend (k : kind) (m : msg amsg)
| ASenderSchedules
| AWorkerStarts
| APop (a : nat)
| ASysDone (a : nat) (ok : bool)
| AUserDone (a : nat)
| AReschedule (a : nat)
| AClose (a : nat)
| ADestroy.               (* the parent handles detach_child: actor.cpp:235 *)

Section Actor.
Variable throughput : nat.
Notation mstep := (MailboxModel.step amsg throughput).

Definition lift (s : state) (touches_cell : bool) (r : option (MailboxModel.state amsg)) : option state :=
  match r with
  | None => None
  | Some m => Some (AState m (cel s) (cbs s) (destroyed s) (ub s || (touches_cell && destroyed s)))
  end.

Definition is_detach (x : cb) : bool := match x with TellDetach => true | _ => false end.

Definition step (s : state) (x : action) : option state :=
  match x with
  | ASend k m =>
      if match k with User => is_user_payload (m_payload m) | Sys => negb (is_user_payload (m_payload m)) end
      then lift s false (mstep (mb s) (Send k m)) else None
  | ASenderSchedules =>
      (* mailbox.cpp:77 reads the cell unless m_is_scheduled *)
      lift s (negb (scheduled (mb s))) (mstep (mb s) SenderSchedules)
  | AWorkerStarts => lift s true (mstep (mb s) WorkerStarts)       (* dynamic_executor.cpp:25 *)
  | APop a => lift s true (mstep (mb s) (Pop a))                   (* mailbox.cpp:145 *)
  | ASysDone a ok =>
      match get_pc amsg (acts (mb s)) a with
      | Some (HandlingSys m _) =>
          let '(c', out, stop, st) := handle (cel s) (started (mb s)) (m_payload m) ok in
          match mstep (mb s) (SysDone a stop st) with
          | None => None
          | Some m' => Some (AState m' c' (cbs s ++ out) (destroyed s) (ub s || destroyed s))
          end
      | _ => None
      end
  | AUserDone a =>                                                 (* actor.cpp:78-97 *)
      match get_pc amsg (acts (mb s)) a with
      | Some (HandlingUser m _) =>
          match m_payload m with
          | MPoison =>      (* 81-84: ref().stop(), i.e. actor_system.cpp:316-336 *)
              lift s true (mstep (enqueue amsg Sys (Msg 0 MStop) (mb s)) (UserDone a))
          | MUser n =>
              match mstep (mb s) (UserDone a) with
              | None => None
              | Some m' => Some (AState m' (cel s) (cbs s ++ [Receive n]) (destroyed s) (ub s || destroyed s))
              end
          | _ => None
          end
      | _ => None
      end
  | AReschedule a => lift s true (mstep (mb s) (Reschedule a))
  | AClose a => lift s false (mstep (mb s) (Close a))
  | ADestroy =>
      if existsb is_detach (cbs s) && negb (destroyed s)
      then Some (AState (mb s) (cel s) (cbs s) true (ub s)) else None
  end.

Fixpoint run (s : state) (xs : list action) : option state :=
  match xs with
  | [] => Some s
  | x :: t => match step s x with
              | None => None
              | Some s' => run s' t
              end
  end.
End Actor.

(* ---- specification vocabulary ---- *)
Definition reachable (tp : nat) (s : state) : Prop := exists xs, run tp init xs = Some s.
Definition is_prestart (x : cb) : bool := match x with PreStart _ => true | _ => false end.
Definition is_prestart_ok (x : cb) : bool := match x with PreStart true => true | _ => false end.
Definition is_poststop (x : cb) : bool := match x with PostStop => true | _ => false end.
Definition is_terminated_for (w : nat) (x : cb) : bool := match x with TellTerminated v => v =? w | _ => false end.
Definition count {B} (f : B -> bool) (l : list B) : nat := length (filter f l).
Definition is_start (m : msg amsg) : bool := match m_payload m with MStart => true | _ => false end.
(* the framework sends start once, when the parent attaches the actor *)
Definition starts_sent (s : state) : nat := count is_start (sent_of amsg Sys (sent (mb s))).
(* child k was accepted (told to start); the child k has reported its end; a
   request to stop *)
Definition starts_child (k : nat) (x : cb) : bool := match x with TellStart v => v =? k | _ => false end.
Definition child_ended (k : nat) (m : msg amsg) : bool := match m_payload m with MDetach v => v =? k | _ => false end.
Definition is_stop_request (m : msg amsg) : bool := match m_payload m with MStop | MStopAfterChildren => true | _ => false end.
(* w is watching after the given system messages were handled *)
Definition watching (w : nat) (l : list (msg amsg)) : bool :=
  fold_left (fun b m => match m_payload m with
                        | MWatch v => if v =? w then true else b
                        | MUnwatch v => if v =? w then false else b
                        | _ => b
                        end) l false.
(* nobody is inside or about to enter the mailbox code, apart from an
   activation that only has to close the mailbox *)
Definition quiet (s : state) : Prop :=
  pending (mb s) = 0 /\ queued (mb s) = 0 /\
  forall a p, In (a, p) (acts (mb s)) -> p = Closing.
Fixpoint destroys_only_when_quiet (tp : nat) (s : state) (xs : list action) : Prop :=
  match xs with
  | [] => True
  | x :: t => (x = ADestroy -> quiet s) /\
              match step tp s x with
              | None => True
              | Some s' => destroys_only_when_quiet tp s' t
              end
  end.
