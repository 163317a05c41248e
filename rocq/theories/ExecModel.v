(* Model of the lookup of execution contexts:
   /repo/modules/actors/yato/actors/private/actor_system.cpp:62-71, 73-78,
   90-121, 229-242.  A context is its name and an identity. *)
From Coq Require Import List Bool String.
Import ListNotations.

Record context := Context { name : string; ident : nat }.

(* std::find_if over [first, last): index of the first match, else last *)
Fixpoint find_if (f : context -> bool) (l : list context) (first last : nat) : nat :=
  match last - first with
  | 0 => last
  | S _ => match l with
           | [] => last
           | c :: t => if f c then first else find_if f t (S first) last
           end
  end.
(* 65-70 : both ends of the searched range are begin() *)
Definition find_execution (cs : list context) (n : string) : option context :=
  let it := find_if (fun c => String.eqb (name c) n) cs 0 0 in
  if Nat.eqb it (List.length cs) then None else nth_error cs it.

(* 91-121 : config = optional default name and the configured contexts;
   None is the exception thrown at 119.  The default context is put first. *)
Definition init_executors (default_executor : option string) (configured : list context) (default_ident : nat)
  : option (string * list context) :=
  let dn := match default_executor with None => "default"%string | Some d => d end in
  let cs := match default_executor with None => [Context dn default_ident] | Some _ => [] end ++ configured in
  match find_execution cs dn with
  | None => None
  | Some _ => Some (dn, cs)
  end.
(* 73-88, 238 : the context an actor gets; props name a context or are absent *)
Definition actor_context (sys : string * list context) (props : option string) : option context :=
  find_execution (snd sys) (match props with None => fst sys | Some n => n end).

(* ---- specification: the context registered first under the name ---- *)
Definition registered (cs : list context) (n : string) (c : context) : Prop :=
  exists pre post, cs = pre ++ c :: post /\ name c = n /\ Forall (fun x => name x <> n) pre.
