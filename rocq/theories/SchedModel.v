(* Model of /repo/modules/actors/yato/actors/private/scheduler.h:34-148.
   One step is one critical section under m_mutex (from a lock or a wake-up to
   the next unlock or wait), one notify_one, or the run of one task.  Time
   points are numbers; every reading of the clock is supplied by the
   environment and may be anything. *)
From Coq Require Import List Bool Arith.
Import ListNotations.

(* id is the submission number (ghost), due the time point *)
Record event := Event { id : nat; due : nat }.

Inductive tstate :=
| Top                         (* before the lock, 63-64 *)
| WaitEmpty (notified : bool) (* in m_condition.wait, 72 *)
| WaitUntil (t : nat) (notified : bool)  (* in m_condition.wait_until(t), 80 *)
| Running (e : event)         (* 90-92 *)
| Exited.

Record state := State {
  events : list event;       (* m_events, 45: descending by due time *)
  soft : bool;               (* m_soft_stop, 52 *)
  force : bool;              (* m_force_stop, 53 *)
  thread : tstate;
  notifies : nat;            (* callers between their unlock and notify_one *)
  accepted : list event;     (* ghost: all submitted events, in order *)
  fired : list (event * nat)  (* ghost: events taken, with the clock reading *)
}.
Definition init : state := State [] false false Top 0 [] [].

(* std::upper_bound with comparator e1.time > e2.time, then insert (140-141):
   before the first element that is earlier than the new one *)
Fixpoint insert_event (e : event) (l : list event) : list event :=
  match l with
  | [] => [e]
  | x :: t => if due x <? due e then e :: x :: t else x :: insert_event e t
  end.

Fixpoint split_last (l : list event) : option (list event * event) :=
  match l with
  | [] => None
  | x :: t => match split_last t with
              | None => Some ([], x)
              | Some (r, y) => Some (x :: r, y)
              end
  end.

(* from line 68 on, with the lock held and m_force_stop false *)
Definition advance (s : state) (now : nat) : state :=
  match split_last (events s) with
  | None => if soft s
            then State (events s) (soft s) (force s) Exited (notifies s) (accepted s) (fired s)
            else State (events s) (soft s) (force s) (WaitEmpty false) (notifies s) (accepted s) (fired s)
  | Some (rest, e) =>
      if now <? due e
      then State (events s) (soft s) (force s) (WaitUntil (due e) false) (notifies s) (accepted s) (fired s)
      else State rest (soft s) (force s) (Running e) (notifies s) (accepted s) (fired s ++ [(e, now)])
  end.

Inductive action :=
| Enqueue (t : nat)       (* 127-146, up to the unlock *)
| SoftStop                (* 112-117, the destructor *)
| ForceStop               (* 122-128 *)
| Notify                  (* m_condition.notify_one, 116, 127, 143 *)
| Lock (now : nat)        (* thread at 64 *)
| Wake (now : nat)        (* thread returns from a wait: notified, timed out or spurious *)
| Finish.                 (* the task returned or its exception was caught, 91-99 *)

Definition exit_if_forced (s : state) (now : nat) : state :=
  if force s then State (events s) (soft s) (force s) Exited (notifies s) (accepted s) (fired s) else advance s now.

Definition step (s : state) (x : action) : option state :=
  match x with
  | Enqueue t =>
      let e := Event (length (accepted s)) t in
      Some (State (insert_event e (events s)) (soft s) (force s) (thread s) (S (notifies s)) (accepted s ++ [e]) (fired s))
  | SoftStop => Some (State (events s) true (force s) (thread s) (S (notifies s)) (accepted s) (fired s))
  | ForceStop => Some (State (events s) (soft s) true (thread s) (S (notifies s)) (accepted s) (fired s))
  | Notify =>
      match notifies s with
      | 0 => None
      | S n =>
          let th := match thread s with
                    | WaitEmpty _ => WaitEmpty true
                    | WaitUntil t _ => WaitUntil t true
                    | x => x
                    end in
          Some (State (events s) (soft s) (force s) th n (accepted s) (fired s))
      end
  | Lock now => match thread s with Top => Some (exit_if_forced s now) | _ => None end
  | Wake now => match thread s with
                | WaitEmpty _ | WaitUntil _ _ => Some (exit_if_forced s now)
                | _ => None
                end
  | Finish => match thread s with
              | Running _ => Some (State (events s) (soft s) (force s) Top (notifies s) (accepted s) (fired s))
              | _ => None
              end
  end.

Fixpoint run (s : state) (xs : list action) : option state :=
  match xs with
  | [] => Some s
  | x :: t => match step s x with
              | None => None
              | Some s' => run s' t
              end
  end.

(* ---- specification vocabulary ---- *)
Definition reachable (s : state) : Prop := exists xs, run init xs = Some s.
(* the caller does not submit to a scheduler it is destroying *)
Fixpoint no_enqueue_after_soft (xs : list action) : Prop :=
  match xs with
  | [] => True
  | SoftStop :: t => (forall d, ~ In (Enqueue d) t) /\ no_enqueue_after_soft t
  | _ :: t => no_enqueue_after_soft t
  end.
Definition fired_events (s : state) : list event := map fst (fired s).
(* a thread in a wait will be woken without help: it has been notified, a
   notify_one is on its way, or it waits for a time point that is not later
   than every pending event (and there is one) *)
Definition will_wake (s : state) : Prop :=
  match thread s with
  | WaitEmpty n => n = true \/ notifies s > 0
  | WaitUntil t n => n = true \/ notifies s > 0 \/ (events s <> [] /\ Forall (fun e => t <= due e) (events s))
  | _ => True
  end.
