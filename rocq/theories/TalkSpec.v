(* What talking actors promise (C94) *)
From Coq Require Import List Bool Arith.
From Verif Require Import TalkModel.
Import ListNotations.

Section Spec.
Context {V S : Type}.
Variable copyable : V -> bool.
Local Notation any := (any V).

(* the value behind however many anys can be copied *)
Fixpoint can_copy (a : any) : bool :=
  match a with Null => true | Val v => copyable v | Nest b => can_copy b end.

(* the messages a list of commands leads to: (to, from, message) *)
Fixpoint sent (from : ref) (p : any) (cs : list (cmd V)) : list (ref * ref * any) :=
  match cs with
  | Tell to (Value v) src :: t => (to, match src with Some r => r | None => Nobody end, Val v) :: sent from p t
  | Tell to Taken src :: t => (to, match src with Some r => r | None => Nobody end, p) :: sent from Null t
  | Tell to Const src :: t => if can_copy p then (to, match src with Some r => r | None => Nobody end, p) :: sent from p t else []
  | Tell to Plain src :: t => if can_copy p then (to, match src with Some r => r | None => Nobody end, Nest p) :: sent from p t else []
  | Forward (Value v) to :: t => (to, from, Val v) :: sent from p t
  | Forward Taken to :: t => (to, from, p) :: sent from Null t
  | Forward Const to :: t => if can_copy p then (to, from, p) :: sent from p t else []
  | Forward Plain to :: t => if can_copy p then (to, from, Nest p) :: sent from p t else []
  | StopSelf :: t => sent from p t
  | _ => []
  end.

(* the questions asked, in order: whom, what *)
Definition question : Type := nat * V.
Definition asks (xs : list (action V)) : list question :=
  flat_map (fun x => match x with Ask to v => [(to, v)] | _ => [] end) xs.

(* A way to reason about who answers what.  Good q i p: actor i may get p with the asker of q
   as sender; Ans q a: a may be told to the asker of q; Mem: what actors may remember, given
   the questions asked so far. *)
Variable Good : question -> nat -> any -> Prop.
Variable Ans : question -> any -> Prop.
Variable Mem : (nat -> option question) -> nat -> S -> Prop.
Variable react : nat -> S -> ref -> any -> S * list (cmd V).
Definition from_ok (qs : nat -> option question) (i : nat) (from : ref) (p : any) : Prop :=
  forall k, from = Asker k -> exists q, qs k = Some q /\ Good q i p.
Definition fine (qs : nat -> option question) (to src : ref) (p : any) : Prop :=
  (forall i, to = Actor i -> from_ok qs i src p) /\
  (forall k, to = Asker k -> exists q, qs k = Some q /\ Ans q p).
Record proved_right : Prop := {
  more_questions : forall qs qs' i st, (forall k q, qs k = Some q -> qs' k = Some q) -> Mem qs i st -> Mem qs' i st;
  at_first : forall to v, Good (to, v) to (Val v);
  handlers : forall qs i st from p, Mem qs i st -> from_ok qs i from p ->
    Mem qs i (fst (react i st from p)) /\
    forall to src a, In (to, src, a) (sent from p (snd (react i st from p))) -> fine qs to src a
}.
End Spec.

(* A network of actors that pass a question on to the one who knows, by its value. *)
Section Net.
Context {V : Type}.
Inductive choice := Next (j : nat) | Reply (w : V) | Ignore.
Variable route : nat -> V -> choice.
(* how is passed on: forward(std::move(message), next) or forward(message, next) *)
Definition router (how : arg V) (i : nat) (st : unit) (from : ref) (p : any V) : unit * list (cmd V) :=
  (tt, match p with
       | Val v => match route i v with
                  | Next j => [Forward how (Actor j)]
                  | Reply w => [Tell from (Value w) (Some (Actor i))]
                  | Ignore => []
                  end
       | _ => []
       end).
(* the answer the network has for v asked of i *)
Inductive answer : nat -> V -> V -> Prop :=
| answer_here i v w : route i v = Reply w -> answer i v w
| answer_next i v j w : route i v = Next j -> answer j v w -> answer i v w.
End Net.
Arguments Next {V}. Arguments Reply {V}. Arguments Ignore {V}.

(* steps the system makes on its own *)
Definition own {V} (x : action V) : Prop :=
  match x with Send _ _ _ | Ask _ _ | Timeout _ | Stop _ => False | _ => True end.
