(* A system of actors on one dynamic executor: the mailboxes of MailboxModel (C39-C42),
   the worker threads and task queue of thread_pool.h:28-103 (as in PoolModel, not
   stopped), and handlers that send messages: dynamic_executor.cpp:22-71,
   actor_system.cpp:254-295, /repo/modules/actors/yato/actors/private.

   What handling a message does is part of the message: the messages the handler sends,
   and, for a system message, whether the actor stops and whether it is started then
   (actor.cpp:161-271).  A cascade of messages that ends is so described; cascades that
   never end are not.  Parents and children are left out (C44).  A handler does not throw
   out of a task (C47). *)
From Coq Require Import List Bool Arith.
From Verif Require Import MailboxModel.
Import ListNotations.

Inductive job := Job (tag : nat) (stop st : bool) (sends : list (nat * kind * job)).
Definition sends_of (j : job) : list (nat * kind * job) := match j with Job _ _ _ l => l end.
Definition stops (j : job) : bool := match j with Job _ b _ _ => b end.
Definition starts (j : job) : bool := match j with Job _ _ b _ => b end.
Definition box := MailboxModel.state job.

(* a pool thread: about to test the predicate, thread_pool.h:49-51; asleep; or running
   mailbox_function of actor a, activation id, whose place is in the mailbox model; todo:
   what the handler has still to send; tell: it has to call schedule_for_execution of
   that actor, actor_system.cpp:269, 289 *)
Inductive wstate := Ready | Waiting | Work (a id : nat) (todo : list (nat * kind * job)) (tell : option nat).

Record state := State {
  boxes : list box;
  tasks : list nat;                     (* m_tasks, thread_pool.h:33; by actor *)
  workers : list wstate;                (* m_threads, 32 *)
  callers : list nat;                   (* threads outside that have to call schedule_for_execution of that actor *)
  begun : list nat;                     (* ghost: the tasks taken so far *)
  told : list (nat * kind * msg job)    (* ghost: all messages told so far *)
}.
Definition init (actors threads : nat) : state :=
  State (repeat (MailboxModel.init job) actors) [] (repeat Ready threads) [] [] [].

Fixpoint upd {A} (l : list A) (i : nat) (x : A) : list A :=
  match l, i with
  | [], _ => []
  | _ :: t, 0 => x :: t
  | y :: t, S j => y :: upd t j x
  end.
Definition is_waiting (x : wstate) : bool := match x with Waiting => true | _ => false end.
(* m_cvar.notify_one(), thread_pool.h:101; the woken thread is chosen by the environment *)
Definition notify_one (l : list wstate) (w : nat) : option (list wstate) :=
  if existsb is_waiting l then
    match nth_error l w with
    | Some Waiting => Some (upd l w Ready)
    | _ => None
    end
  else Some l.
Definition set_worker (s : state) (w : nat) (x : wstate) : state :=
  State (boxes s) (tasks s) (upd (workers s) w x) (callers s) (begun s) (told s).

Section Whole.
Variable throughput : nat.
(* a critical section of the mailbox of actor a; if it queues a task, that is
   dynamic_executor::execute, 66-71, and thread_pool::enqueue, 94-102 *)
Definition on_box (a : nat) (x : action job) (woken : nat) (s : state) : option state :=
  match nth_error (boxes s) a with
  | None => None
  | Some b =>
      match MailboxModel.step job throughput b x with
      | None => None
      | Some b' =>
          if queued b <? queued b' then
            match notify_one (workers s) woken with
            | None => None
            | Some ws => Some (State (upd (boxes s) a b') (tasks s ++ [a]) ws (callers s) (begun s) (told s))
            end
          else Some (State (upd (boxes s) a b') (tasks s) (workers s) (callers s) (begun s) (told s))
      end
  end.
(* first half of a tell, actor_system.cpp:254-269: enqueue; the flag: need_process.  There is
   nobody to tell it to if the actor does not exist. *)
Definition tell_ (j : nat) (k : kind) (m : msg job) (s : state) : option (state * bool) :=
  match nth_error (boxes s) j with
  | None => Some (s, false)
  | Some b =>
      match on_box j (Send k m) 0 s with
      | None => None
      | Some s' =>
          Some (State (boxes s') (tasks s') (workers s') (callers s') (begun s') (told s' ++ [(j, k, m)]),
                is_open b && negb (scheduled b))
      end
  end.
(* one step of a pool thread inside mailbox_function, dynamic_executor.cpp:22-52 *)
Definition go (w a id : nat) (todo : list (nat * kind * job)) (tell : option nat) (woken : nat) (s : state) : option state :=
  match tell with
  | Some j => on_box j SenderSchedules woken (set_worker s w (Work a id todo None))
  | None =>
      match nth_error (boxes s) a with
      | None => None
      | Some b =>
          match get_pc job (acts b) id with
          | Some (Popping _) =>
              match on_box a (Pop id) woken s with
              | None => None
              | Some s' =>
                  match nth_error (boxes s') a with
                  | None => None
                  | Some b' =>
                      Some (set_worker s' w (Work a id (match get_pc job (acts b') id with
                                                        | Some (HandlingSys m _) | Some (HandlingUser m _) => sends_of (m_payload m)
                                                        | _ => []
                                                        end) None))
                  end
              end
          | Some (HandlingSys m _) =>
              match todo with
              | (j, k, x) :: t =>
                  match tell_ j k (Msg a x) s with
                  | None => None
                  | Some (s', need) => Some (set_worker s' w (Work a id t (if need then Some j else None)))
                  end
              | [] => on_box a (SysDone id (stops (m_payload m)) (starts (m_payload m))) woken s
              end
          | Some (HandlingUser m _) =>
              match todo with
              | (j, k, x) :: t =>
                  match tell_ j k (Msg a x) s with
                  | None => None
                  | Some (s', need) => Some (set_worker s' w (Work a id t (if need then Some j else None)))
                  end
              | [] => on_box a (UserDone id) woken s
              end
          | Some Rescheduling =>
              match on_box a (Reschedule id) woken s with None => None | Some s' => Some (set_worker s' w Ready) end
          | Some Closing =>
              match on_box a (Close id) woken s with None => None | Some s' => Some (set_worker s' w Ready) end
          | None => None
          end
      end
  end.

Inductive action :=
| Tell (j : nat) (k : kind) (m : msg job)   (* a thread outside tells actor j something *)
| CallerSchedules (i : nat) (woken : nat)   (* the i-th of the threads outside goes on *)
| Spurious (w : nat)                        (* a spurious wake-up *)
| Enter (w : nat)                           (* thread_pool.h:49-57 *)
| Go (w : nat) (woken : nat).
Fixpoint without {A} (l : list A) (i : nat) : list A :=
  match l, i with [], _ => [] | _ :: t, 0 => t | x :: t, S j => x :: without t j end.

Definition step (s : state) (x : action) : option state :=
  match x with
  | Tell j k m =>
      match tell_ j k m s with
      | None => None
      | Some (s', need) => Some (State (boxes s') (tasks s') (workers s') (if need then callers s' ++ [j] else callers s') (begun s') (told s'))
      end
  | CallerSchedules i woken =>
      match nth_error (callers s) i with
      | None => None
      | Some j => on_box j SenderSchedules woken (State (boxes s) (tasks s) (workers s) (without (callers s) i) (begun s) (told s))
      end
  | Spurious w => match nth_error (workers s) w with Some Waiting => Some (set_worker s w Ready) | _ => None end
  | Enter w =>
      match nth_error (workers s) w with
      | Some Ready =>
          match tasks s with
          | [] => Some (set_worker s w Waiting)
          | a :: r =>
              match nth_error (boxes s) a with
              | None => None
              | Some b =>
                  match on_box a WorkerStarts 0 s with
                  | None => None
                  | Some s' => Some (set_worker (State (boxes s') r (workers s') (callers s') (begun s' ++ [a]) (told s')) w
                                                (Work a (next_act b) [] None))
                  end
              end
          end
      | _ => None
      end
  | Go w woken =>
      match nth_error (workers s) w with
      | Some (Work a id todo tell) => go w a id todo tell woken s
      | _ => None
      end
  end.
Fixpoint run (s : state) (xs : list action) : option state :=
  match xs with [] => Some s | x :: t => match step s x with None => None | Some s' => run s' t end end.
End Whole.
