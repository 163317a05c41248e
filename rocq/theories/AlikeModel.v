(* The tree of TreeModel with the names of actors.  A reference is equal to another if
   the paths are (actor_ref.h:124-128), and nothing keeps an actor from being created
   with the name of a sibling (actor_system.cpp:229-251, actor_cell.cpp:42-51).  The path
   of a child is that of its parent and its name, so among the children of one actor
   paths are equal where names are.

   All other models number the actors, that is, they are about actors whose living
   siblings have other names.

   The network managers name their children by addresses (tcp.cpp:62-63, 94-95,
   udp.cpp:48-49), a listener at an address like a connection to it.

   A handler is one step here, so an actor that is destroyed is not in a handler; if it
   is, that is undefined behaviour, which is not modelled.  Watchers, which are found by
   their paths as well (actor.cpp:207-225), are not modelled. *)
From Coq Require Import String List Bool Arith.
From Verif Require Import TreeModel.
Import ListNotations.

Record nstate := NState {
  tree : state;
  nm : nat -> string;                (* the name of an actor *)
  lost : nat -> string -> nat        (* ghost: children destroyed before they had stopped *)
}.
(* actor_path.cpp: scope_names *)
Definition guard_name (a : nat) : string :=
  match a with 1 => "system" | 2 => "temp" | 3 => "user" | 4 => "remote" | _ => "" end%string.
Definition ninit : nstate := NState init guard_name (fun _ _ => 0).

(* the find_if of remove_child, actor_cell.cpp:55 *)
Fixpoint first_named (f : nat -> string) (n : string) (l : list nat) : option nat :=
  match l with
  | [] => None
  | k :: t => if String.eqb (f k) n then Some k else first_named f n t
  end.
(* the destructor of a cell: its children, the cells in messages that were not handled,
   and its mailbox, which no reference finds any more (actor_ref.h: a weak_ptr) *)
Definition waiting (s : state) (q : list smsg) : list nat :=
  flat_map (fun m => match m with SAttach c => if att (nd s c) then [] else [c] | _ => [] end) q.
Fixpoint erase (fuel : nat) (s : state) (k : nat) : state :=
  match fuel with
  | 0 => s
  | S f => destroy (fold_left (erase f) (kids (nd s k) ++ waiting s (sysq (nd s k))) s) k
  end.
Definition bump (f : nat -> string -> nat) (a : nat) (n : string) : nat -> string -> nat :=
  fun b m => if (b =? a) && String.eqb m n then S (f b m) else f b m.
(* remove_child, actor_cell.cpp:53-60; the cell of an actor that has stopped is of no
   use any more.  The children have greater numbers, so the fuel suffices *)
Definition remove_child (s : nstate) (a c : nat) : nstate * list nat :=
  let t := tree s in
  match first_named (nm s) (nm s c) (kids (nd t a)) with
  | None => (s, kids (nd t a))
  | Some k =>
      let ks := remove_first k (kids (nd t a)) in
      if stopped (nd t k) then (s, ks)
      else (NState (erase (size t) t k) (nm s) (bump (lost s) a (nm s c)), ks)
  end.
(* actor.cpp:234-242 *)
Definition detach (s : nstate) (a c : nat) : nstate :=
  let '(s1, ks) := remove_child s a c in
  let t := tree s1 in
  NState (if stopping (nd t a) && is_nil ks then stop_node t a else set_kids t a ks) (nm s1) (lost s1).

(* an action with the name of the actor that it creates, if it does *)
Definition nstep (s : nstate) (x : action * string) : option nstate :=
  let t := tree s in
  let go := option_map (fun t' => NState t' (nm s) (lost s)) (step t (fst x)) in
  match fst x with
  | Handle a _ =>
      match sysq (nd t a) with
      | SDetach c :: _ =>
          if opn (nd t a) then let s' := detach s a c in Some (NState (pop_sys (tree s') a) (nm s') (lost s')) else None
      | _ => go
      end
  | CreateTop _ | CreateChild _ =>
      option_map (fun t' => NState t' (upd (nm s) (size t) (snd x)) (lost s)) (step t (fst x))
  | _ => go
  end.
Fixpoint nrun (s : nstate) (xs : list (action * string)) : option nstate :=
  match xs with
  | [] => Some s
  | x :: t => match nstep s x with None => None | Some s' => nrun s' t end
  end.

(* ---- specification vocabulary ---- *)
Definition nreachable (s : nstate) : Prop := exists xs, nrun ninit xs = Some s.
(* the actor was attached, and its cell is destroyed though it has not stopped *)
Definition vanished (t : state) (k : nat) : Prop :=
  att (nd t k) = true /\ gone (nd t k) = true /\ stopped (nd t k) = false.
(* the step does not attach an actor to one that has a child with the same name *)
Definition new_name (s : nstate) (x : action) : Prop :=
  match x with
  | Handle a _ => forall c q, sysq (nd (tree s) a) = SAttach c :: q -> forall k, In k (kids (nd (tree s) a)) -> nm s k <> nm s c
  | _ => True
  end.
(* the step does not remove a child that has an elder sibling of the same name *)
Definition in_order (s : nstate) (x : action) : Prop :=
  match x with
  | Handle a _ => forall c q, sysq (nd (tree s) a) = SDetach c :: q ->
      forall l r, kids (nd (tree s) a) = l ++ c :: r -> forall k, In k l -> nm s k <> nm s c
  | _ => True
  end.
Fixpoint nrun_all (P : nstate -> action -> Prop) (s : nstate) (xs : list (action * string)) : Prop :=
  match xs with
  | [] => True
  | x :: t => P s (fst x) /\ match nstep s x with None => True | Some s' => nrun_all P s' t end
  end.
