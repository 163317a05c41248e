(* Model of /repo/modules/actors/yato/actors/private/thread_pool.h:28-103.
   One step is one critical section under m_mutex, or the run of one task.
   Tasks are numbers; what a task does is not modelled, except whether it
   throws.  m_log is never assigned (thread_pool.h:40), so the logging in the
   handlers at 66-71 and 98 dereferences a null pointer: outcome [crashed]. *)
From Coq Require Import List Bool Arith.
Import ListNotations.

Inductive wstate :=
| Ready                 (* about to lock m_mutex and test the predicate, 49-51 *)
| Waiting               (* asleep in m_cvar.wait, 50 *)
| Running (t : nat)     (* executing a task, 62-64 *)
| Exited.               (* left the loop, 52 *)

Record state := State {
  tasks : list nat;         (* m_tasks, 33 *)
  stop : bool;              (* m_stop, 38 *)
  workers : list wstate;    (* m_threads, 32 *)
  crashed : bool;
  accepted : list nat;      (* ghost: tasks put into the queue, in order *)
  began : list nat;         (* ghost: tasks taken out, in order *)
  ended : list nat          (* ghost: tasks that returned *)
}.
(* thread_pool.h:43-79 *)
Definition init (threads_num : nat) : state := State [] false (repeat Ready threads_num) false [] [] [].

Inductive action :=
| Enqueue (t : nat) (woken : nat)     (* 94-102; notify_one wakes worker [woken] if it waits *)
| StopAll                             (* 82-85, the destructor *)
| Enter (w : nat)                     (* 49-57 *)
| Spurious (w : nat)                  (* a spurious wake-up of the condition variable *)
| Finish (w : nat) (throws : bool).   (* 62-71 *)

Definition is_waiting (x : wstate) : bool := match x with Waiting => true | _ => false end.
Fixpoint update (l : list wstate) (i : nat) (x : wstate) : list wstate :=
  match l, i with
  | [], _ => []
  | _ :: t, 0 => x :: t
  | y :: t, S j => y :: update t j x
  end.
(* notify_one with the woken thread chosen by the environment: if somebody
   waits, the choice has to be a waiting thread *)
Definition notify_one (l : list wstate) (w : nat) : option (list wstate) :=
  if existsb is_waiting l then
    match nth_error l w with
    | Some Waiting => Some (update l w Ready)
    | _ => None
    end
  else Some l.
Definition notify_all (l : list wstate) : list wstate :=
  map (fun x => match x with Waiting => Ready | _ => x end) l.

Definition step (s : state) (x : action) : option state :=
  if crashed s then None else
  match x with
  | Enqueue t w =>
      if stop s then Some (State (tasks s) true (workers s) true (accepted s) (began s) (ended s))
      else match notify_one (workers s) w with
           | None => None
           | Some ws => Some (State (tasks s ++ [t]) false ws false (accepted s ++ [t]) (began s) (ended s))
           end
  | StopAll => Some (State (tasks s) true (notify_all (workers s)) false (accepted s) (began s) (ended s))
  | Enter w =>
      match nth_error (workers s) w with
      | Some Ready =>
          match tasks s with
          | [] => if stop s
                  then Some (State [] true (update (workers s) w Exited) false (accepted s) (began s) (ended s))
                  else Some (State [] false (update (workers s) w Waiting) false (accepted s) (began s) (ended s))
          | t :: r => Some (State r (stop s) (update (workers s) w (Running t)) false (accepted s) (began s ++ [t]) (ended s))
          end
      | _ => None
      end
  | Spurious w =>
      match nth_error (workers s) w with
      | Some Waiting => Some (State (tasks s) (stop s) (update (workers s) w Ready) false (accepted s) (began s) (ended s))
      | _ => None
      end
  | Finish w throws =>
      match nth_error (workers s) w with
      | Some (Running t) => Some (State (tasks s) (stop s) (update (workers s) w Ready) throws (accepted s) (began s) (ended s ++ [t]))
      | _ => None
      end
  end.

Fixpoint run (s : state) (xs : list action) : option state :=
  match xs with
  | [] => Some s
  | x :: t => match step s x with
              | None => None
              | Some s' => run s' t
              end
  end.

(* ---- specification vocabulary ---- *)
Definition reachable (n : nat) (s : state) : Prop := exists xs, run (init n) xs = Some s.
(* steps of the worker threads themselves, with tasks that do not throw *)
Definition own_step (x : action) : bool :=
  match x with Enter _ => true | Finish _ false => true | _ => false end.
Definition in_progress (s : state) : list nat :=
  flat_map (fun w => match w with Running t => [t] | _ => [] end) (workers s).
Definition all_exited (s : state) : Prop := Forall (fun w => w = Exited) (workers s).
