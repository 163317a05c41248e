(* The actor tree of TreeModel with handlers that take time.  In TreeModel one
   step handles a message completely: every message the handler sends arrives,
   and the mailbox closes, in the same instant.  Here the sends of a handler
   happen one by one, and those of different actors interleave freely, as they
   do on the threads of the pool; while an actor sends, others handle what it
   has sent already.  In particular an actor that stops tells its parent BEFORE
   its mailbox closes, so the parent may handle detach_child, destroy the cell
   of the child and stop itself while the child is still on its way out.
   /repo/modules/actors/yato/actors/private/actor.cpp:78-85, 134-242 (handlers),
   actors/root.cpp:44-123, dynamic_executor.cpp:24-52 (close and notify_on_stop
   after the handler), actor_system.cpp:396-414 (notify_on_stop_).

   What a handler does to the cell of its own actor (children, m_stop,
   m_started, the flags of the root) no other thread looks at, so it is one step
   with taking the message; so is add_child's write to a child that has not
   started.  post_stop and pre_start belong to that step too.  What follows -
   the sends, the closing, the notification - is kept in todo and done effect by
   effect.  Otherwise the simplifications are those of TreeModel. *)
From Coq Require Import List Bool Arith.
From Verif Require Import TreeModel.
Import ListNotations.

Inductive effect :=
| ESys (b : nat) (m : smsg)   (* send_system_message *)
| EUsr (b : nat) (u : umsg)   (* tell *)
| EClose                      (* mbox->close(), dynamic_executor.cpp:37 *)
| ENotify.                    (* notify_on_stop, dynamic_executor.cpp:38 *)

Record fstate := FState {
  base : state;
  todo : nat -> list effect;   (* what the running handler of an actor has still to do *)
  told : nat -> bool           (* notify_on_stop_ was called for the actor *)
}.

Definition finit : fstate := FState init (fun _ => []) (fun _ => false).

(* actor.cpp:134-159, up to the sends; then the watcher of a guardian, the
   parent, and what the executor does after request_stop *)
Definition post_stop (s : state) (a : nat) : state :=
  let v := nd s a in
  set_nd s a (Node (par v) (att v) (gone v) [] (stopping v) (killing v) false (opn v) true (sysq v) (usrq v)).
Definition farewell (s : state) (a : nat) : list effect :=
  (if is_guard a then [EUsr 0 (UTerm a)] else []) ++
  (if att (nd s a) then [ESys (par (nd s a)) (SDetach a)] else []) ++ [EClose; ENotify].

(* actor.cpp:164-184 *)
Definition pre_start (s : state) (a : nat) (ok : bool) : state :=
  let v := nd s a in
  set_nd s a (Node (par v) (att v) (gone v) (kids v) (stopping v) (killing v) ok (opn v) (stopped v) (sysq v) (usrq v)).

(* actor_cell.cpp:42-50 *)
Definition link (s : state) (a c : nat) : state :=
  let s1 := set_kids s a (kids (nd s a) ++ [c]) in
  let v1 := nd s1 c in
  set_nd s1 c (Node a true (gone v1) (kids v1) (stopping v1) (killing v1) (started v1) (opn v1) (stopped v1) (sysq v1) (usrq v1)).

(* actor.cpp:161-242: what happens at once, and what follows *)
Definition fhandle_sys (s : state) (a : nat) (m : smsg) (ok : bool) : state * list effect :=
  match m with
  | SStart => (pre_start s a ok, if ok then [] else [EClose; ENotify])
  | SStop =>
      if is_nil (kids (nd s a)) then (post_stop s a, farewell s a)
      else (set_stopping s a true, map (fun c => EUsr c UPoison) (kids (nd s a)))
  | SStopAfter =>
      if is_nil (kids (nd s a)) then (post_stop s a, farewell s a) else (set_stopping s a false, [])
  | SAttach c =>
      if stopping (nd s a) then ((if att (nd s c) then s else destroy s c), [])
      else if att (nd s c) || gone (nd s c) then (s, [])
      else (link s a c, [ESys c SStart])
  | SDetach c =>
      let ks := remove_first c (kids (nd s a)) in
      if stopping (nd s a) && is_nil ks then (post_stop s a, farewell s a) else (set_kids s a ks, [])
  end.

(* actor.cpp:78-85 and root.cpp:44-123 (for a = 0).  Unlike in TreeModel the
   root does not look at the guardian's mailbox: root.cpp:55-71 just sends. *)
Definition fhandle_usr (s : state) (a : nat) (u : umsg) : state * list effect :=
  match u with
  | UPoison => (s, [ESys a SStop])
  | UOther => (s, [])
  | UAdd g c => if negb (a =? 0) then (s, []) else (s, [ESys g (SAttach c)])
  | URootTerm b =>
      if negb (a =? 0) then (s, []) else
      let m := if b then SStop else SStopAfter in (s, [ESys 3 m; ESys 4 m])
  | UTerm g =>
      if negb (a =? 0) then (s, []) else
      let s1 := State (size s) (nd s) (upd (flag s) g true) (requested s) in
      (s1, if flag s1 1 && flag s1 2 then [ESys 0 SStopAfter]
           else if flag s1 3 && flag s1 4 then
             (if flag s1 1 then [] else [ESys 1 SStop]) ++ (if flag s1 2 then [] else [ESys 2 SStop])
           else [])
  end.

(* mailbox.cpp:125-130 *)
Definition close (s : state) (a : nat) : state :=
  let v := nd s a in
  set_nd s a (Node (par v) (att v) (gone v) (kids v) (stopping v) (killing v) (started v) false (stopped v) (sysq v) (usrq v)).
(* enqueueing, mailbox.cpp:32-67; a closed mailbox drops the message, and with an
   attach_child the cell it owns *)
Definition deliver (s : state) (b : nat) (m : smsg) : state :=
  if opn (nd s b) then push_sys s b m
  else match m with
       | SAttach c => if att (nd s c) then s else destroy s c
       | _ => s
       end.
Definition emit (f : fstate) (a : nat) (e : effect) (rest : list effect) : fstate :=
  let t := upd (todo f) a rest in
  match e with
  | ESys b m => FState (deliver (base f) b m) t (told f)
  | EUsr b u => FState (push_usr (base f) b u) t (told f)
  | EClose => FState (close (base f) a) t (told f)
  | ENotify => FState (base f) t (upd (told f) a true)
  end.

Inductive faction :=
| FHandle (a : nat) (ok : bool)   (* actor a takes its next message; ok: pre_start succeeds *)
| FEmit (a : nat)                 (* the handler of a does the next thing *)
| FEnv (x : action).              (* anything else of TreeModel *)

Definition begin (f : fstate) (a : nat) (r : state * list effect) (pop : state -> nat -> state) : fstate :=
  FState (pop (fst r) a) (upd (todo f) a (snd r)) (told f).

Definition fstep (f : fstate) (x : faction) : option fstate :=
  let s := base f in
  match x with
  | FHandle a ok =>
      let v := nd s a in
      if is_nil (todo f a) && opn v then
        match sysq v with
        | m :: _ => Some (begin f a (fhandle_sys s a m ok) pop_sys)
        | [] => if started v then
                  match usrq v with
                  | u :: _ => Some (begin f a (fhandle_usr s a u) pop_usr)
                  | [] => None
                  end
                else None
        end
      else None
  | FEmit a =>
      match todo f a with
      | e :: rest => Some (emit f a e rest)
      | [] => None
      end
  | FEnv (Handle _ _) => None
  | FEnv x =>
      match step s x with
      | Some s' => Some (FState s' (todo f) (told f))
      | None => None
      end
  end.

Fixpoint frun (f : fstate) (xs : list faction) : option fstate :=
  match xs with
  | [] => Some f
  | x :: t => match fstep f x with
              | None => None
              | Some f' => frun f' t
              end
  end.

(* ---- specification vocabulary ---- *)
Definition freachable (f : fstate) : Prop := exists xs, frun finit xs = Some f.
(* pre_start succeeds, and stop() is called only on attached actors *)
Definition fbehaved (f : fstate) (x : faction) : Prop :=
  match x with
  | FHandle _ ok => ok = true
  | FEnv (SendStop a) => a = 0 \/ att (nd (base f) a) = true
  | _ => True
  end.
Fixpoint fbehaved_run (f : fstate) (xs : list faction) : Prop :=
  match xs with
  | [] => True
  | x :: t => fbehaved f x /\ match fstep f x with None => True | Some f' => fbehaved_run f' t end
  end.
Definition fwell (f : fstate) : Prop := exists xs, fbehaved_run finit xs /\ frun finit xs = Some f.
(* the actors by themselves *)
Definition own (x : faction) : bool := match x with FHandle _ true => true | FEmit _ => true | _ => false end.
Definition fquiet (f : fstate) : Prop := forall x, own x = true -> fstep f x = None.
(* shutdown() returns when the root has been reported, actor_system.cpp:173-190, 400-405;
   the timer thread is stopped when the user guardian is, 407-410 *)
Definition shutdown_returns (f : fstate) : bool := told f 0.
Definition timers_stopped (f : fstate) : bool := told f 3.
