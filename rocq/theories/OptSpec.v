(* What a program expects of its optionals: each variable that exists is empty
   or has a value. *)
From Coq Require Import List Bool Arith.
From Verif Require Import LifeModel OptModel.
Import ListNotations.

Section Spec.
Context {V : Type}.
Variable husk : V -> V.

(* None: no such variable.  Some None: an empty optional. *)
Definition state := nat -> option (option V).

Definition nothing : state := fun _ => None.

Definition put (st : state) (i : nat) (x : option (option V)) : state :=
  fun k => if k =? i then x else st k.

Definition exists_in (st : state) (i : nat) : Prop := st i <> None.
Definition full_in (st : state) (i : nat) : Prop := exists v, st i = Some (Some v).
Definition empty_in (st : state) (i : nat) : Prop := st i = Some None.

(* a value that passes the test stays, anything else becomes empty *)
Definition keep_if (p : V -> bool) (c : option V) : option V :=
  match c with
  | Some v => if p v then Some v else None
  | None => None
  end.

(* What the program may do.  A swap of a full optional with an empty one is
   left out, and so is emplacing into an optional from its own value. *)
Definition legal (o : op V) (st : state) : Prop :=
  match o with
  | New i | NewValue i _ => st i = None
  | NewCopy i j | NewMove i j | NewFilter i j _ | NewFilterMove i j _ | NewMap i j _ =>
      st i = None /\ exists_in st j
  | Delete i | Emplace i _ | Reset i => exists_in st i
  | EmplaceFrom i j => exists_in st i /\ full_in st j /\ i <> j
  | CopyAssign i j | MoveAssign i j => exists_in st i /\ exists_in st j
  | Swap i j => exists_in st i /\ exists_in st j /\ ~ (full_in st i /\ empty_in st j)
  end.

(* The effect of an operation that returns. *)
Definition effect (o : op V) (st : state) : state :=
  match o with
  | New i | Reset i => put st i (Some None)
  | NewValue i v | Emplace i v => put st i (Some (Some v))
  | NewCopy i j | EmplaceFrom i j | CopyAssign i j => put st i (st j)
  | NewMove i j => put (put st j (Some None)) i (st j)
  | NewFilter i j p => put st i (option_map (keep_if p) (st j))
  | NewFilterMove i j p =>
      match st j with
      | Some (Some v) => if p v then put (put st j (Some None)) i (Some (Some v)) else put st i (Some None)
      | _ => put st i (Some None)
      end
  | NewMap i j f => put st i (option_map (option_map f) (st j))
  | Delete i => put st i None
  | MoveAssign i j => put (put st j (option_map (option_map husk) (st j))) i (st j)
  | Swap i j => put (put st j (st i)) i (st j)
  end.

(* The effect of an operation that throws: emplace leaves its optional empty,
   exchanging two full optionals leaves both full, everything else has no
   effect; what cannot throw is listed last. *)
Definition effect_of_throw (o : op V) (st st' : state) : Prop :=
  match o with
  | NewValue _ _ | NewCopy _ _ | NewMove _ _ | NewFilter _ _ _ | NewFilterMove _ _ _ | NewMap _ _ _
  | CopyAssign _ _ | MoveAssign _ _ => forall k, st' k = st k
  | Emplace i _ | EmplaceFrom i _ => forall k, st' k = put st i (Some None) k
  | Swap i j =>
      (forall k, k <> i -> k <> j -> st' k = st k) /\
      (forall k, full_in st k <-> full_in st' k) /\ (forall k, empty_in st k <-> empty_in st' k)
  | New _ | Reset _ | Delete _ => False
  end.

(* One operation, returning or throwing. *)
Definition step (o : op V) (st : state) (r : out (world V bool) unit) (st' : state) (w' : world V bool) : Prop :=
  (r = Done tt w' /\ forall k, st' k = effect o st k) \/
  (r = Threw w' /\ effect_of_throw o st st').

(* What the program can see of an optional without changing it. *)
Definition seen (w : world V bool) (st : state) : Prop :=
  (forall i v, st i = Some (Some v) ->
     get i w = Done v w /\ (forall d, get_or i d w = Done v w) /\ (forall p, exists_ i p w = Done (p v) w)) /\
  (forall i, st i = Some None ->
     get i w = Threw w /\ (forall d, get_or i d w = Done d w) /\ (forall p, exists_ i p w = Done false w)).

(* Exactly the values are alive: no object is lost, there is an object in the
   storage of an optional if and only if it has a value, and the objects
   constructed so far are those destroyed and those alive. *)
Definition balanced (w : world V bool) (st : state) : Prop :=
  lost w = 0 /\
  (forall i k v, cells w i k = Some v <-> k = 0 /\ st i = Some (Some v)) /\
  (forall full, NoDup full -> (forall i, In i full <-> full_in st i) -> built w = ended w + length full).

End Spec.
Arguments state : clear implicits.

(* A history of operations. *)
Fixpoint run {V : Type} (husk : V -> V) (l : list (op V)) (w : world V bool) : option (world V bool) :=
  match l with
  | [] => Some w
  | o :: l' =>
      match exec husk o w with
      | Done _ w' => run husk l' w'
      | Threw w' => run husk l' w'
      | Undef => None
      end
  end.

(* Without exceptions the state after a history is determined. *)
Fixpoint effects {V : Type} (husk : V -> V) (l : list (op V)) (st : state V) : state V :=
  match l with
  | [] => st
  | o :: l' => effects husk l' (effect husk o st)
  end.

Fixpoint all_legal {V : Type} (husk : V -> V) (l : list (op V)) (st : state V) : Prop :=
  match l with
  | [] => True
  | o :: l' => legal o st /\ all_legal husk l' (effect husk o st)
  end.
