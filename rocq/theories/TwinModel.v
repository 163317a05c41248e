(* Actors that share a path.  An actor_ref compares by path only
   (/repo/modules/actors/yato/actors/actor_ref.h:118-128), creating an actor does
   not look whether its path is taken (private/actor_system.cpp:229-251,
   private/actor.cpp:128-131), and a parent finds the cell of the child that
   reports its end by comparing references (private/actor_cell.cpp:52-60), as a
   watched actor finds its watchers (private/actor.cpp:207-222).  FlowModel and
   TreeModel number the actors and compare the numbers.  Here every actor has a
   path as well, and detach_child removes and destroys the FIRST child with the
   path it names, whoever that is, together with everything below it: the cells
   own their children (private/actor_cell.h:70).

   What a thread does inside a destroyed cell is undefined behaviour in the code.
   Here a destroyed actor takes no message any more, and what its handler has
   still to do it does; uses_dead below says when a thread is about to touch a
   destroyed cell. *)
From Coq Require Import List Bool Arith.
From Verif Require Import TreeModel FlowModel.
Import ListNotations.

(* the names from the actor up to the root; actor_path.cpp joins them with '/' *)
Definition path := list nat.
Fixpoint same_path (p q : path) : bool :=
  match p, q with
  | [], [] => true
  | x :: p', y :: q' => (x =? y) && same_path p' q'
  | _, _ => false
  end.

Record nstate := NState {
  flow : fstate;
  name : nat -> path;
  dead : nat -> bool       (* the cell has been destroyed by the parent *)
}.
(* the root and the guardians, root.cpp:20-43 *)
Definition ninit : nstate := NState finit (fun a => match a with 1 | 2 | 3 | 4 => [a] | _ => [] end) (fun _ => false).

(* std::find_if over the children, actor_cell.cpp:54 *)
Fixpoint find_ref (nm : nat -> path) (p : path) (l : list nat) : option nat :=
  match l with
  | [] => None
  | y :: t => if same_path (nm y) p then Some y else find_ref nm p t
  end.
(* m_children.erase(it), actor_cell.cpp:57 *)
Fixpoint remove_ref (nm : nat -> path) (p : path) (l : list nat) : list nat :=
  match l with
  | [] => []
  | y :: t => if same_path (nm y) p then t else y :: remove_ref nm p t
  end.
(* the cells that are destroyed with that of k; depth bounds the tree *)
Fixpoint below (depth : nat) (s : state) (k : nat) : list nat :=
  k :: match depth with
       | 0 => []
       | S d => flat_map (below d s) (kids (nd s k))
       end.
Definition bury (s : state) (dd : nat -> bool) (k : option nat) : nat -> bool :=
  match k with
  | None => dd
  | Some k => fun b => dd b || existsb (Nat.eqb b) (below (size s) s k)
  end.

(* actor.cpp:234-242, the handler of detach_child *)
Definition detach (nm : nat -> path) (s : state) (a c : nat) : state * list effect :=
  let ks := remove_ref nm (nm c) (kids (nd s a)) in
  if stopping (nd s a) && is_nil ks then (post_stop s a, farewell s a) else (set_kids s a ks, []).

Inductive naction :=
| Act (x : faction)                 (* anything but creating *)
| NewTop (g : nat) (nm : nat)       (* actor_system::create_actor, actor_system.cpp:229-251 *)
| NewChild (p : nat) (nm : nat).    (* basic_actor::create_child, actor.cpp:128-131 *)
Definition creates (x : faction) : bool :=
  match x with FEnv (CreateTop _) | FEnv (CreateChild _) => true | _ => false end.

Definition lift (n : nstate) (r : option fstate) : option nstate :=
  match r with Some f => Some (NState f (name n) (dead n)) | None => None end.
Definition born (n : nstate) (p : path) (r : option fstate) : option nstate :=
  match r with Some f => Some (NState f (upd (name n) (size (base (flow n))) p) (dead n)) | None => None end.

Definition nstep (n : nstate) (x : naction) : option nstate :=
  let f := flow n in
  match x with
  | Act (FHandle a ok) =>
      if dead n a then None else
      match sysq (nd (base f) a) with
      | SDetach c :: _ =>
          if is_nil (todo f a) && opn (nd (base f) a) then
            Some (NState (begin f a (detach (name n) (base f) a c) pop_sys) (name n)
                    (bury (base f) (dead n) (find_ref (name n) (name n c) (kids (nd (base f) a)))))
          else None
      | _ => lift n (fstep f (FHandle a ok))
      end
  | Act x => if creates x then None else lift n (fstep f x)
  | NewTop g nm => born n [nm; g] (fstep f (FEnv (CreateTop g)))
  | NewChild p nm => born n (nm :: name n p) (fstep f (FEnv (CreateChild p)))
  end.
Fixpoint nrun (n : nstate) (xs : list naction) : option nstate :=
  match xs with
  | [] => Some n
  | x :: t => match nstep n x with
              | None => None
              | Some n' => nrun n' t
              end
  end.

(* the watchers of one actor, actor.cpp:207-222: at most one with a given path *)
Definition watch (nm : nat -> path) (l : list nat) (w : nat) : list nat :=
  match find_ref nm (nm w) l with Some _ => l | None => l ++ [w] end.
Definition unwatch (nm : nat -> path) (l : list nat) (w : nat) : list nat := remove_ref nm (nm w) l.
Inductive request := Watch (w : nat) | Unwatch (w : nat).
Definition serve (nm : nat -> path) (l : list nat) (r : request) : list nat :=
  match r with Watch w => watch nm l w | Unwatch w => unwatch nm l w end.
(* who is told when the actor stops, after these requests: actor.cpp:150-154 *)
Definition told_of (nm : nat -> path) (rs : list request) : list nat := fold_left (serve nm) rs [].
