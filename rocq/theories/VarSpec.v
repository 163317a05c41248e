(* What a program expects of its variants. *)
From Coq Require Import List Bool Arith.
From Verif Require Import LifeModel VarModel.
Import ListNotations.

Section Spec.
Context {V : Type}.
Variable husk0 : V -> V.

(* A variant holds a value of one of its alternatives, or void, or nothing
   usable: after it was moved from, and after an assignment or emplace threw.
   In the first of these an object of the old type is still there. *)
Inductive content :=
| Held (t : nat) (v : V)
| Nul
| Spent (left : option (nat * V)).

(* the variables with their alternatives, and the number of objects left behind
   by moves whose variants are gone *)
Record state := MkState {
  var : nat -> option (list nat * content);
  leaked : nat
}.

Definition nothing : state := MkState (fun _ => None) 0.

Definition put (f : nat -> option (list nat * content)) (i : nat) (x : option (list nat * content)) :=
  fun k => if k =? i then x else f k.

Definition on_vars (st : state) (f : nat -> option (list nat * content)) : state := MkState f (leaked st).

Definition usable (st : state) (i : nat) (l : list nat) : Prop :=
  (exists t v, var st i = Some (l, Held t v)) \/ var st i = Some (l, Nul).

Definition alternative (l : list nat) (t : nat) : Prop := In t l /\ t <> 0.

(* What the program may do: alternatives are distinct; only usable variants are
   copied, moved from, assigned to or emplaced into. *)
Definition legal (o : op V) (st : state) : Prop :=
  match o with
  | NewVoid i l => var st i = None /\ NoDup l /\ In 0 l
  | NewValue i l t _ => var st i = None /\ NoDup l /\ alternative l t
  | NewCopy i j | NewMove i j => var st i = None /\ exists l, usable st j l
  | NewCast i l j | NewCastMove i l j => var st i = None /\ NoDup l /\ exists x, var st j = Some x
  | Delete i => exists x, var st i = Some x
  | Emplace i t _ => exists l, usable st i l /\ alternative l t
  | CopyAssign i j | MoveAssign i j => exists l, usable st i l /\ usable st j l
  end.

(* what is left in a variant that is moved from *)
Definition remains (c : content) : content :=
  match c with
  | Held t v => Spent (Some (t, husk0 v))
  | _ => Spent None
  end.

(* is there a place for this content in a variant with these alternatives? *)
Definition fits (l : list nat) (c : content) : bool :=
  match c with
  | Held t _ => existsb (Nat.eqb t) l
  | Nul => existsb (Nat.eqb 0) l
  | Spent _ => false
  end.

Definition same_alternative (c d : content) : bool :=
  match c, d with
  | Held t _, Held u _ => t =? u
  | Nul, Nul => true
  | _, _ => false
  end.

Definition is_left (x : option (list nat * content)) : nat :=
  match x with Some (_, Spent (Some _)) => 1 | _ => 0 end.

(* The effect of an operation that returns. *)
Definition effect (o : op V) (st : state) : state :=
  match o with
  | NewVoid i l => on_vars st (put (var st) i (Some (l, Nul)))
  | NewValue i l t v => on_vars st (put (var st) i (Some (l, Held t v)))
  | NewCopy i j => on_vars st (put (var st) i (var st j))
  | NewMove i j =>
      match var st j with
      | Some (l, c) => on_vars st (put (put (var st) j (Some (l, remains c))) i (Some (l, c)))
      | None => st
      end
  | NewCast i l j =>
      match var st j with
      | Some (_, c) => on_vars st (put (var st) i (Some (l, c)))
      | None => st
      end
  | NewCastMove i l j =>
      match var st j with
      | Some (l', Held t v) => on_vars st (put (put (var st) j (Some (l', Held t (husk0 v)))) i (Some (l, Held t v)))
      | Some (_, c) => on_vars st (put (var st) i (Some (l, c)))
      | None => st
      end
  | Delete i => MkState (put (var st) i None) (leaked st + is_left (var st i))
  | Emplace i t v =>
      match var st i with
      | Some (l, _) => on_vars st (put (var st) i (Some (l, Held t v)))
      | None => st
      end
  | CopyAssign i j => on_vars st (put (var st) i (var st j))
  | MoveAssign i j =>
      match var st j with
      | Some (l, c) =>
          if i =? j
          then on_vars st (put (var st) i (Some (l, Spent (match c with Held t v => Some (t, v) | _ => None end))))
          else on_vars st (put (put (var st) j (Some (l, remains c))) i (Some (l, c)))
      | None => st
      end
  end.

(* The effect of an operation that throws: nothing, except that the variant to
   be emplaced into, or to be assigned another alternative, is spent. *)
Definition effect_of_throw (o : op V) (st : state) : state :=
  match o with
  | Emplace i _ _ =>
      match var st i with
      | Some (l, _) => on_vars st (put (var st) i (Some (l, Spent None)))
      | None => st
      end
  | CopyAssign i j | MoveAssign i j =>
      match var st i, var st j with
      | Some (l, c), Some (_, d) =>
          if same_alternative c d then st else on_vars st (put (var st) i (Some (l, Spent None)))
      | _, _ => st
      end
  | _ => st
  end.

(* Operations that throw whatever the element type does: casts to variants
   without the stored alternative. *)
Definition must_throw (o : op V) (st : state) : bool :=
  match o with
  | NewCast _ l j | NewCastMove _ l j =>
      match var st j with Some (_, c) => negb (fits l c) | None => false end
  | _ => false
  end.

Definition after (o : op V) (st : state) (threw : bool) : state :=
  if threw then effect_of_throw o st else effect o st.

Definition result (threw : bool) (w : world (nat * V) vf) : out (world (nat * V) vf) unit :=
  if threw then Threw w else Done tt w.

(* What the program can see of a variant without changing it. *)
Definition seen (w : world (nat * V) vf) (st : state) : Prop :=
  (forall i l t v, var st i = Some (l, Held t v) ->
     get i t w = Done v w /\ (forall d, get_or i t d w = Done v w) /\ empty i w = Done false w /\
     (forall u, is_type i u w = Done (u =? t) w) /\
     (forall u, In u l -> u <> t -> get i u w = Threw w /\ (forall d, get_or i u d w = Done d w))) /\
  (forall i l, var st i = Some (l, Nul) ->
     empty i w = Done true w /\ (forall u, is_type i u w = Done (u =? 0) w) /\
     (forall u, alternative l u -> get i u w = Threw w /\ (forall d, get_or i u d w = Done d w))) /\
  (forall i l x, var st i = Some (l, Spent x) ->
     empty i w = Done false w /\ (forall u, is_type i u w = Done false w) /\
     (forall u, In u l -> get i u w = Threw w /\ (forall d, get_or i u d w = Done d w))).

Definition object (x : option (list nat * content)) : option (nat * V) :=
  match x with
  | Some (_, Held t v) => Some (t, v)
  | Some (_, Spent (Some y)) => Some y
  | _ => None
  end.

(* The objects alive are the values held and those left behind by moves; an
   object is lost exactly when a variant that was moved from goes away. *)
Definition balanced (w : world (nat * V) vf) (st : state) : Prop :=
  lost w = leaked st /\
  (forall i k, cells w i k = match k with 0 => object (var st i) | _ => None end) /\
  (forall l, NoDup l -> (forall i, In i l <-> object (var st i) <> None) -> built w = ended w + lost w + length l).

(* Histories. *)
Fixpoint run (l : list (op V)) (w : world (nat * V) vf) : option (world (nat * V) vf) :=
  match l with
  | [] => Some w
  | o :: l' =>
      match exec husk0 o w with
      | Done _ w' => run l' w'
      | Threw w' => run l' w'
      | Undef => None
      end
  end.

(* the state after a history in which only casts throw *)
Fixpoint effects (l : list (op V)) (st : state) : state :=
  match l with
  | [] => st
  | o :: l' => effects l' (after o st (must_throw o st))
  end.

Fixpoint all_legal (l : list (op V)) (st : state) : Prop :=
  match l with
  | [] => True
  | o :: l' => legal o st /\ all_legal l' (after o st (must_throw o st))
  end.

(* a history without moves *)
Definition moves (o : op V) : bool :=
  match o with NewMove _ _ | MoveAssign _ _ => true | _ => false end.

End Spec.
Arguments state : clear implicits.
Arguments content : clear implicits.
