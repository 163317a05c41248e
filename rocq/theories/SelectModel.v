(* Model of searching an actor by path: actor_system::find,
   /repo/modules/actors/yato/actors/private/actor_system.cpp:340-354,
   private/actors/selector.cpp:19-32, private/actor.cpp:243-264.

   The tree does not change during the search (a child that is attached or
   stops meanwhile may or may not be found; one that stops with the request in
   its queue answers nothing and the caller gets the timeout, C49).  An actor
   is its number and its path. *)
From Coq Require Import List Bool Arith Ascii String.
From Verif Require Import ActorPathModel.
Import ListNotations.

Inductive tree := Node (id : nat) (path : str) (kids : list tree).
Definition id_of (t : tree) := match t with Node i _ _ => i end.
Definition path_of (t : tree) := match t with Node _ p _ => p end.
Definition kids_of (t : tree) := match t with Node _ _ k => k end.
(* actor_ref.h:75-78 *)
Definition name_of (t : tree) : str := get_name (path_of t).

Inductive answer := Success (id : nat) | Failure.
(* who gets the answer: the selector, or nobody because the reference was moved
   out of the message before *)
Inductive receiver := Selector | Nobody.

(* actor.cpp:243-264.  path is a vector, its back is the last element.  The
   message is moved to the first matching child; a second matching child gets
   what is left: an empty path and an empty sender. *)
Fixpoint select (t : tree) (sender : receiver) (path : list str) : list (receiver * answer) :=
  match t with
  | Node i _ kids =>
      match rev path with
      | [] => [(sender, Success i)]
      | next :: rest =>
          (fix go (ks : list tree) (sender : receiver) (path : list str) (found : bool) :=
             match ks with
             | [] => if found then [] else [(sender, Failure)]
             | k :: ks' =>
                 if str_eqb next (name_of k)
                 then select k sender path ++ go ks' Nobody [] true
                 else go ks' sender path found
             end) kids sender (rev rest) false
      end
  end.

(* selector.cpp:19-32 ; None = undefined behaviour of parce *)
Definition find_actor (root : tree) (target : str) : option (list (receiver * answer)) :=
  match parce target false with
  | UB => None
  | Reject => Some [(Selector, Failure)]
  | Accept e => Some (select root Selector (rev (e_names e) ++ [scope_to_str (e_scope e)]))
  end.

(* ---- specification vocabulary ---- *)
Fixpoint nodes (t : tree) : list tree :=
  match t with
  | Node _ _ kids => t :: flat_map nodes kids
  end.
(* every child's path is its parent's path, a slash, and a name; siblings have
   different names (actor_system.h:64-81) *)
Fixpoint well_named (t : tree) : Prop :=
  match t with
  | Node _ p kids =>
      NoDup (map name_of kids) /\
      (fix all (ks : list tree) : Prop :=
         match ks with
         | [] => True
         | k :: ks' => (exists n, n <> [] /\ slash_free n /\ path_of k = p ++ slash :: n) /\ well_named k /\ all ks'
         end) kids
  end.
