(* What a program expects of its anys: each is empty or has a value of some
   type, and no two share anything. *)
From Coq Require Import List Bool Arith.
From Verif Require Import LifeModel AnyModel.
Import ListNotations.

Section Spec.
Context {V : Type}.
Variable copyable : nat -> bool.

Definition state := nat -> option (option (val V)).
Definition nothing : state := fun _ => None.

Definition put (st : state) (i : nat) (x : option (option (val V))) : state :=
  fun k => if k =? i then x else st k.

Definition exists_in (st : state) (i : nat) : Prop := st i <> None.
Definition full_in (st : state) (i : nat) : Prop := exists x, st i = Some (Some x).

(* Only variables that exist can be used, and only new names declared. *)
Definition legal (o : op V) (st : state) : Prop :=
  match o with
  | New i | NewPlain i _ _ => st i = None
  | NewCopyConst i j | NewCopyLvalue i j | NewMove i j => st i = None /\ exists_in st j
  | Delete i | AssignPlain i _ _ | Clear i | Store i _ _ => exists_in st i
  | AssignConst i j | AssignLvalue i j | AssignMove i j | Swap i j => exists_in st i /\ exists_in st j
  end.

(* every type in the value can be copied *)
Inductive can_copy : val V -> Prop :=
| copy_plain t v : copyable t = true -> can_copy (Plain t v)
| copy_inner_empty : can_copy (Inner None)
| copy_inner x : can_copy x -> can_copy (Inner (Some x)).

(* The effect of an operation that returns.  Copying a variable that is not
   const wraps its content. *)
Definition effect (o : op V) (st : state) : state :=
  match o with
  | New i | Clear i => put st i (Some None)
  | NewPlain i t v | AssignPlain i t v | Store i t v => put st i (Some (Some (Plain t v)))
  | NewCopyConst i j | AssignConst i j => put st i (st j)
  | NewCopyLvalue i j | AssignLvalue i j =>
      match st j with Some c => put st i (Some (Some (Inner c))) | None => st end
  | NewMove i j => put (put st j (Some None)) i (st j)
  | Delete i => put st i None
  | AssignMove i j => put (put st i (st j)) j (Some None)
  | Swap i j => put (put st j (st i)) i (st j)
  end.

(* Operations that throw, whatever allocations and copies do: copying what
   cannot be copied, and asking for another type. *)
Definition must_throw (o : op V) (st : state) : Prop :=
  match o with
  | NewCopyConst _ j | NewCopyLvalue _ j | AssignConst _ j | AssignLvalue _ j =>
      exists x, st j = Some (Some x) /\ ~ can_copy x
  | Store i t _ => ~ exists v, st i = Some (Some (Plain t v))
  | _ => False
  end.

(* An operation has its effect or, if it throws, none. *)
Definition step (o : op V) (st : state) (w : aworld V) (w' : aworld V) (st' : state) : Prop :=
  (exec copyable o w = Done tt w' /\ (forall k, st' k = effect o st k) /\ ~ must_throw o st) \/
  (exec copyable o w = Threw w' /\ (forall k, st' k = st k) /\ (must_throw o st \/ athrows w <> [])).


(* What the program can see. *)
Definition seen (w : aworld V) (st : state) : Prop :=
  (forall i t v, st i = Some (Some (Plain t v)) ->
     type_of i w = Done (OfType t) w /\ empty i w = Done false w /\ get i t w = Done v w /\
     (forall d, get_or i t d w = Done v w) /\
     (forall u, u <> t -> get i u w = Threw w /\ forall d, get_or i u d w = Done d w)) /\
  (forall i c, st i = Some (Some (Inner c)) ->
     type_of i w = Done OfAny w /\ empty i w = Done false w /\
     (forall u, get i u w = Threw w /\ forall d, get_or i u d w = Done d w)) /\
  (forall i, st i = Some None ->
     type_of i w = Done Void w /\ empty i w = Done true w /\
     (forall u, get i u w = Threw w /\ forall d, get_or i u d w = Done d w)).

(* No two anys share a holder, and the holders not freed are those owned. *)
Definition balanced (w : aworld V) (st : state) : Prop :=
  (forall i j a, anys w i = Some (Some a) -> anys w j = Some (Some a) -> i = j) /\
  (forall a, heap w a <> None <-> exists i, anys w i = Some (Some a)) /\
  (forall l, NoDup l -> (forall i, In i l <-> full_in st i) -> allocs w = frees w + length l).

(* Histories without failing allocations and copies, in the model and as
   expected. *)
Fixpoint run (l : list (op V)) (w : aworld V) : option (aworld V) :=
  match l with
  | [] => Some w
  | o :: l' =>
      match exec copyable o w with
      | Done _ w' => run l' w'
      | Threw w' => run l' w'
      | Undef => None
      end
  end.

Inductive follows : list (op V) -> state -> state -> Prop :=
| follows_nil st : follows [] st st
| follows_done o l st st' : legal o st -> ~ must_throw o st -> follows l (effect o st) st' -> follows (o :: l) st st'
| follows_threw o l st st' : legal o st -> must_throw o st -> follows l st st' -> follows (o :: l) st st'.

End Spec.
Arguments state : clear implicits.
