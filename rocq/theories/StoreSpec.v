(* What a program expects of its storages. *)
From Coq Require Import List Bool Arith.
From Verif Require Import LifeModel AnyModel StoreModel.
Import ListNotations.

Section Spec.
Context {V : Type}.

(* None: no such variable.  Some None: a storage with no object. *)
Definition state := nat -> option (option V).
Definition nothing : state := fun _ => None.
Definition put (st : state) (i : nat) (x : option (option V)) : state := fun k => if k =? i then x else st k.
Definition exists_in (st : state) (i : nat) : Prop := st i <> None.
Definition full_in (st : state) (i : nat) : Prop := exists v, st i = Some (Some v).

(* In place: a storage without object can be given one, and nothing else. *)
Definition stack_legal (o : op V) (st : state) : Prop :=
  match o with
  | New i | NewValue i _ => st i = None
  | NewCopy i j | NewMove i j => st i = None /\ full_in st j
  | Delete i | Write i _ => full_in st i
  | Assign i j | AssignMove i j | Swap i j => full_in st i /\ full_in st j
  | Emplace i _ => st i = Some None
  end.

Definition stack_effect (o : op V) (st : state) : state :=
  match o with
  | New i => put st i (Some None)
  | NewValue i v | Write i v | Emplace i v => put st i (Some (Some v))
  | NewCopy i j | NewMove i j | Assign i j | AssignMove i j => put st i (st j)
  | Delete i => put st i None
  | Swap i j => put (put st j (st i)) i (st j)
  end.

(* Operations that throw: assigning and swapping may leave a storage without
   object. *)
Definition stack_failure (o : op V) (st st' : state) : Prop :=
  match o with
  | NewValue _ _ | NewCopy _ _ | NewMove _ _ | Write _ _ | Emplace _ _ => forall k, st' k = st k
  | Assign i j | AssignMove i j => i <> j /\ forall k, st' k = put st i (Some None) k
  | Swap i j => i <> j /\
      ((forall k, st' k = st k) \/ (forall k, st' k = put st i (Some None) k) \/
       (forall k, st' k = put (put st j (Some None)) i (st j) k))
  | New _ | Delete _ => False
  end.

Definition stack_step (o : op V) (st : state) (w w' : world V unit) (st' : state) : Prop :=
  (stack_exec o w = Done tt w' /\ forall k, st' k = stack_effect o st k) \/
  (stack_exec o w = Threw w' /\ throws w <> [] /\ stack_failure o st st').

Definition stack_seen (w : world V unit) (st : state) : Prop :=
  forall i v, st i = Some (Some v) -> stack_get i w = Done v w.

Definition stack_balanced (w : world V unit) (st : state) : Prop :=
  lost w = 0 /\ forall l, NoDup l -> (forall i, In i l <-> full_in st i) -> built w = ended w + length l.

(* On the heap: storages without object are fine but must not be copied. *)
Definition heap_legal (o : op V) (st : state) : Prop :=
  match o with
  | New i | NewValue i _ => st i = None
  | NewCopy i j => st i = None /\ full_in st j
  | NewMove i j => st i = None /\ exists_in st j
  | Delete i => exists_in st i
  | Assign i j => exists_in st i /\ exists_in st j /\ (i <> j -> full_in st j)
  | AssignMove i j | Swap i j => exists_in st i /\ exists_in st j
  | Write i _ => full_in st i
  | Emplace _ _ => False
  end.

Definition heap_effect (o : op V) (st : state) : state :=
  match o with
  | New i => put st i (Some None)
  | NewValue i v | Write i v => put st i (Some (Some v))
  | NewCopy i j | Assign i j => put st i (st j)
  | NewMove i j => put (put st j (Some None)) i (st j)
  | AssignMove i j => if i =? j then st else put (put st j (Some None)) i (st j)
  | Delete i => put st i None
  | Swap i j => put (put st j (st i)) i (st j)
  | Emplace _ _ => st
  end.

(* An operation has its effect or, if it throws, none. *)
Definition heap_step (o : op V) (st : state) (w w' : aworld V) (st' : state) : Prop :=
  (heap_exec o w = Done tt w' /\ forall k, st' k = heap_effect o st k) \/
  (heap_exec o w = Threw w' /\ athrows w <> [] /\ forall k, st' k = st k).

Definition heap_seen (w : aworld V) (st : state) : Prop :=
  forall i c, st i = Some c -> heap_get i w = Done (option_map (Plain 0) c) w.

Definition heap_balanced (w : aworld V) (st : state) : Prop :=
  (forall i j a, anys w i = Some (Some a) -> anys w j = Some (Some a) -> i = j) /\
  (forall a, heap w a <> None <-> exists i, anys w i = Some (Some a)) /\
  (forall l, NoDup l -> (forall i, In i l <-> full_in st i) -> allocs w = frees w + length l).

Fixpoint stack_run (l : list (op V)) (w : world V unit) : option (world V unit) :=
  match l with
  | [] => Some w
  | o :: l' => match stack_exec o w with Done _ w' => stack_run l' w' | Threw w' => stack_run l' w' | Undef => None end
  end.
Fixpoint heap_run (l : list (op V)) (w : aworld V) : option (aworld V) :=
  match l with
  | [] => Some w
  | o :: l' => match heap_exec o w with Done _ w' => heap_run l' w' | Threw w' => heap_run l' w' | Undef => None end
  end.
End Spec.
Arguments state : clear implicits.
