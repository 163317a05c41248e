(* Model of the whole actor tree: creation, attaching, stopping, and the
   shutdown protocol of the root.
   /repo/modules/actors/yato/actors/private/actor.cpp:134-242 (system messages),
   actor_cell.cpp:42-60, actor_system.cpp:229-251 (create), 173-190 (shutdown),
   396-414, actors/root.cpp:20-104.

   Mailboxes are two FIFO queues; one step handles one message of one actor,
   system messages first, user messages only when started (MailboxModel proves
   that this is what the executor does).  Actors are numbered in order of
   creation: 0 is the root, 1..4 the guardians system, temp, user, remote.  The
   initial state is the one after root::pre_start and the four attach messages
   were handled: the guardians are attached and watched and have start in their
   queues.  Watching by others, ordinary user messages, and selection are left
   out here (ActorModel, SelectModel). *)
From Coq Require Import List Bool Arith.
Import ListNotations.

Inductive smsg := SStart | SStop | SStopAfter | SAttach (c : nat) | SDetach (c : nat).
Inductive umsg :=
| UPoison
| UAdd (g c : nat)            (* root_add: cell c for guardian g, root.cpp:48-80 *)
| URootTerm (stop_user : bool)  (* root_terminate, root.cpp:81-90 *)
| UTerm (g : nat)             (* terminated, root.cpp:91-118 *)
| UOther.                     (* a message of the user *)

Record node := Node {
  par : nat;              (* parent, valid when att *)
  att : bool;             (* has_parent(), actor_cell.cpp:47 *)
  gone : bool;            (* the cell was destroyed without being attached *)
  kids : list nat;
  stopping : bool;
  killing : bool;         (* ghost: a stop (not stop_after_children) set it *)
  started : bool;
  opn : bool;             (* the mailbox accepts messages *)
  stopped : bool;         (* ghost: stop_impl has run *)
  sysq : list smsg;
  usrq : list umsg
}.

Record state := State {
  size : nat;               (* actors created so far *)
  nd : nat -> node;
  flag : nat -> bool;       (* m_sys_stopped .. m_rmt_stopped of the root *)
  requested : bool          (* ghost: shutdown() has been called *)
}.

Definition upd {B} (f : nat -> B) (a : nat) (v : B) : nat -> B := fun b => if b =? a then v else f b.
Definition set_nd (s : state) (a : nat) (v : node) : state := State (size s) (upd (nd s) a v) (flag s) (requested s).

Definition fresh : node := Node 0 false false [] false false false true false [] [].
Definition absent : node := Node 0 false true [] false false false false false [] [].
Definition init : state :=
  State 5
    (fun a => match a with
              | 0 => Node 0 false false [1; 2; 3; 4] false false true true false [] []
              | 1 | 2 | 3 | 4 => Node 0 true false [] false false false true false [SStart] []
              | _ => absent
              end)
    (fun _ => false) false.

(* enqueueing drops the message if the mailbox is closed, mailbox.cpp:32-67 *)
Definition push_sys (s : state) (a : nat) (m : smsg) : state :=
  let v := nd s a in
  if opn v then set_nd s a (Node (par v) (att v) (gone v) (kids v) (stopping v) (killing v) (started v) true (stopped v) (sysq v ++ [m]) (usrq v))
  else s.
Definition push_usr (s : state) (a : nat) (m : umsg) : state :=
  let v := nd s a in
  if opn v then set_nd s a (Node (par v) (att v) (gone v) (kids v) (stopping v) (killing v) (started v) true (stopped v) (sysq v) (usrq v ++ [m]))
  else s.
Definition set_kids (s : state) (a : nat) (ks : list nat) : state :=
  let v := nd s a in
  set_nd s a (Node (par v) (att v) (gone v) ks (stopping v) (killing v) (started v) (opn v) (stopped v) (sysq v) (usrq v)).
Definition set_stopping (s : state) (a : nat) (kill : bool) : state :=
  let v := nd s a in
  set_nd s a (Node (par v) (att v) (gone v) (kids v) true (killing v || kill) (started v) (opn v) (stopped v) (sysq v) (usrq v)).
Definition pop_sys (s : state) (a : nat) : state :=
  let v := nd s a in
  set_nd s a (Node (par v) (att v) (gone v) (kids v) (stopping v) (killing v) (started v) (opn v) (stopped v) (tl (sysq v)) (usrq v)).
Definition pop_usr (s : state) (a : nat) : state :=
  let v := nd s a in
  set_nd s a (Node (par v) (att v) (gone v) (kids v) (stopping v) (killing v) (started v) (opn v) (stopped v) (sysq v) (tl (usrq v))).

Definition is_guard (a : nat) : bool := (1 <=? a) && (a <=? 4).

(* actor.cpp:161-184 *)
Definition start_node (s : state) (a : nat) (ok : bool) : state :=
  let v := nd s a in
  set_nd s a (Node (par v) (att v) (gone v) (kids v) (stopping v) (killing v) ok (if ok then opn v else false) (stopped v) (sysq v) (usrq v)).

(* actor.cpp:134-159 and the mailbox close that follows (dynamic_executor.cpp:38);
   the children list is empty at this point.  The watcher of a guardian is the
   root; the parent is told if there is one. *)
Definition stop_node (s : state) (a : nat) : state :=
  let v := nd s a in
  let s1 := set_nd s a (Node (par v) (att v) (gone v) [] (stopping v) (killing v) false false true (sysq v) (usrq v)) in
  let s2 := if is_guard a then push_usr s1 0 (UTerm a) else s1 in
  if att v then push_sys s2 (par v) (SDetach a) else s2.

(* the cell of an actor that never got attached is destroyed *)
Definition destroy (s : state) (c : nat) : state :=
  let v := nd s c in
  set_nd s c (Node (par v) (att v) true (kids v) (stopping v) (killing v) (started v) false (stopped v) (sysq v) (usrq v)).

(* actor_cell.cpp:42-50, actor.cpp:228-231.  The message owns the cell, so a cell
   that is attached or destroyed cannot be in a message; the test on att and
   gone is there to make the function total. *)
Definition attach (s : state) (a c : nat) : state :=
  let v := nd s c in
  if att v || gone v then s else
  let s1 := set_kids s a (kids (nd s a) ++ [c]) in
  let v1 := nd s1 c in
  let s2 := set_nd s1 c (Node a true (gone v1) (kids v1) (stopping v1) (killing v1) (started v1) (opn v1) (stopped v1) (sysq v1) (usrq v1)) in
  push_sys s2 c SStart.

Fixpoint remove_first (x : nat) (l : list nat) : list nat :=
  match l with
  | [] => []
  | y :: t => if y =? x then t else y :: remove_first x t
  end.
Definition is_nil {B} (l : list B) : bool := match l with [] => true | _ => false end.

(* actor.cpp:161-242 *)
Definition handle_sys (s : state) (a : nat) (m : smsg) (ok : bool) : state :=
  match m with
  | SStart => start_node s a ok
  | SStop =>
      if is_nil (kids (nd s a)) then stop_node s a
      else fold_left (fun s c => push_usr s c UPoison) (kids (nd s a)) (set_stopping s a true)
  | SStopAfter =>
      if is_nil (kids (nd s a)) then stop_node s a else set_stopping s a false
  | SAttach c =>
      if stopping (nd s a) then (if att (nd s c) then s else destroy s c) else attach s a c
  | SDetach c =>
      let ks := remove_first c (kids (nd s a)) in
      if stopping (nd s a) && is_nil ks then stop_node s a else set_kids s a ks
  end.

(* actor.cpp:78-85 and root.cpp:44-123 (for a = 0) *)
Definition handle_usr (s : state) (a : nat) (u : umsg) : state :=
  match u with
  | UPoison => push_sys s a SStop
  | UOther => s
  | UAdd g c =>
      if negb (a =? 0) then s else
      if opn (nd s g) then push_sys s g (SAttach c) else if att (nd s c) then s else destroy s c
  | URootTerm b =>
      if negb (a =? 0) then s else
      let m := if b then SStop else SStopAfter in
      push_sys (push_sys s 3 m) 4 m
  | UTerm g =>
      if negb (a =? 0) then s else
      let s1 := State (size s) (nd s) (upd (flag s) g true) (requested s) in
      if flag s1 1 && flag s1 2 then push_sys s1 0 SStopAfter
      else if flag s1 3 && flag s1 4 then
        let s2 := if flag s1 1 then s1 else push_sys s1 1 SStop in
        if flag s1 2 then s2 else push_sys s2 2 SStop
      else s1
  end.

Inductive action :=
| Handle (a : nat) (ok : bool)     (* actor a handles its next message; ok: pre_start succeeds *)
| CreateTop (g : nat)              (* actor_system::create_actor etc. *)
| CreateChild (p : nat)            (* an actor creates a child while handling something *)
| SendStop (a : nat)               (* stop() from anywhere *)
| SendUser (a : nat) (poison : bool)   (* tell() from anywhere *)
| Shutdown (stop_user : bool).     (* actor_system.cpp:173-190 *)

Definition new_actor (s : state) : state :=
  State (S (size s)) (upd (nd s) (size s) fresh) (flag s) (requested s).

Definition step (s : state) (x : action) : option state :=
  match x with
  | Handle a ok =>
      let v := nd s a in
      if opn v then
        match sysq v with
        | m :: _ => Some (pop_sys (handle_sys s a m ok) a)
        | [] => if started v then
                  match usrq v with
                  | u :: _ => Some (pop_usr (handle_usr s a u) a)
                  | [] => None
                  end
                else None
        end
      else None
  | CreateTop g =>
      if is_guard g then
        let c := size s in
        let s1 := new_actor s in
        Some (if opn (nd s1 0) then push_usr s1 0 (UAdd g c) else destroy s1 c)
      else None
  | CreateChild p =>
      if (5 <=? p) && opn (nd s p) && started (nd s p) then
        Some (push_sys (new_actor s) p (SAttach (size s)))
      else None
  | SendStop a => Some (push_sys s a SStop)
  | SendUser a poison => Some (push_usr s a (if poison then UPoison else UOther))
  | Shutdown b =>
      let s1 := push_usr s 0 (URootTerm b) in
      Some (State (size s1) (nd s1) (flag s1) (requested s1 || b))
  end.

Fixpoint run (s : state) (xs : list action) : option state :=
  match xs with
  | [] => Some s
  | x :: t => match step s x with
              | None => None
              | Some s' => run s' t
              end
  end.

(* ---- specification vocabulary ---- *)
Definition reachable (s : state) : Prop := exists xs, run init xs = Some s.
(* pre_start succeeds, and stop() is called only on attached actors *)
Definition well_behaved (s : state) (x : action) : Prop :=
  match x with
  | Handle _ ok => ok = true
  | SendStop a => a = 0 \/ att (nd s a) = true
  | _ => True
  end.
Fixpoint well_behaved_run (s : state) (xs : list action) : Prop :=
  match xs with
  | [] => True
  | x :: t => well_behaved s x /\ match step s x with None => True | Some s' => well_behaved_run s' t end
  end.
Definition well_reachable (s : state) : Prop := exists xs, well_behaved_run init xs /\ run init xs = Some s.
Definition is_handle (x : action) : bool := match x with Handle _ true => true | _ => false end.
(* no actor can do anything *)
Definition quiescent (s : state) : Prop := forall a, step s (Handle a true) = None.
