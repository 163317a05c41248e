(* What a program expects of the accessors of variant, over the contents of
   VarSpec.v. *)
From Coq Require Import List Bool Arith.
From Verif Require Import LifeModel VarModel VarSpec VaccModel.
Import ListNotations.

Section Spec.
Context {V : Type}.
Variable husk0 : V -> V.

Definition there (st : state V) (i : nat) : Prop := exists x, var st i = Some x.

(* Which accesses are allowed: the alternative is one of the variant's; an
   unchecked access and a reference that was kept need an object of the type. *)
Definition allowed (a : access V) (st : state V) : Prop :=
  match a with
  | TypeIndex i | IsType i _ | IsEmpty i | ToBool i => there st i
  | Type_ i => exists l, usable st i l
  | Equal i j => there st i /\ there st j
  | GetAt i k _ | GetOrAt i k _ _ => exists l c t, var st i = Some (l, c) /\ nth_error l k = Some t /\ t <> 0
  | Get i t _ | GetOr i t _ _ | GetOpt i t _ => exists l c, var st i = Some (l, c) /\ alternative l t
  | GetUnsafe i t _ | Look i t => exists v, object (var st i) = Some (t, v)
  end.

(* What the program finds: an answer, with the contents afterwards, or its end. *)
Inductive outcome := Says (x : shown V) (st : state V) | Dies.

Definition holds_void (st : state V) (i : nat) : bool := match var st i with Some (_, Nul) => true | _ => false end.

(* the value of alternative t in the variant *)
Definition found (st : state V) (i t : nat) : option V :=
  match var st i with
  | Some (_, Held u v) => if u =? t then Some v else None
  | _ => None
  end.

(* the type a program asks for by index *)
Definition at_ (st : state V) (i k : nat) : nat :=
  match var st i with Some (l, _) => nth k l 0 | None => 0 end.

(* the object of a variant is moved from; the variant is not told *)
Definition emptied (x : option (list nat * content V)) : option (list nat * content V) :=
  match x with
  | Some (l, Held t v) => Some (l, Held t (husk0 v))
  | Some (l, Spent (Some (t, v))) => Some (l, Spent (Some (t, husk0 v)))
  | _ => x
  end.
Definition take (c : cat) (i : nat) (st : state V) : state V :=
  match c with Rvalue => on_vars st (put (var st) i (emptied (var st i))) | _ => st end.

(* get and friends: the value is given, or the exception of the copy comes out *)
Definition checked (r : option V) (threw : bool) (i : nat) (c : cat) (st : state V) : outcome :=
  match r with
  | None => Says BadAccess st
  | Some v => if threw then Says ElementThrew st else Says (Value v) (take c i st)
  end.
(* get_or: the value or the default; no exception comes out *)
Definition defaulted (r : option V) (d : V) (threw : bool) (i : nat) (c : cat) (st : state V) : outcome :=
  if threw then Dies
  else match r with
       | None => Says (Value d) st
       | Some v => Says (Value v) (take c i st)
       end.

Definition index_is (x : option (list nat * content V)) (k : nat) : Prop :=
  match x with
  | Some (l, Held t _) => nth_error l k = Some t
  | Some (l, Nul) => nth_error l k = Some 0
  | Some (_, Spent _) => k = 255
  | None => False
  end.

(* [threw]: does the next operation of an element type throw? *)
Definition expected (a : access V) (st : state V) (threw : bool) (r : outcome) : Prop :=
  match a with
  | TypeIndex i => exists k, index_is (var st i) k /\ r = Says (Index k) st
  | Type_ i => r = Says (TypeIs (match var st i with Some (_, Held t _) => t | _ => 0 end)) st
  | IsType i t => r = Says (Answer (match var st i with
                                    | Some (_, Held u _) => u =? t
                                    | Some (_, Nul) => t =? 0
                                    | _ => false
                                    end)) st
  | IsEmpty i => r = Says (Answer (holds_void st i)) st
  | ToBool i => r = Says (Answer (negb (holds_void st i))) st
  | Equal i j => r = Says (Answer (Bool.eqb (holds_void st i) (holds_void st j))) st
  | GetAt i k c => r = checked (found st i (at_ st i k)) threw i c st
  | Get i t c => r = checked (found st i t) threw i c st
  | GetOrAt i k d c => r = defaulted (found st i (at_ st i k)) d threw i c st
  | GetOr i t d _ => r = defaulted (found st i t) d threw i Lvalue st
  | GetOpt i t c => r = match found st i t with
                        | None => Says (Maybe None) st
                        | Some v => if threw then Dies else Says (Maybe (Some v)) (take c i st)
                        end
  | GetUnsafe i t c => exists v, object (var st i) = Some (t, v) /\
                                 r = if threw then Says ElementThrew st else Says (Value v) (take c i st)
  | Look i t => exists v, object (var st i) = Some (t, v) /\ r = Says (Value v) st
  end.

(* accesses after which the variant has its value as before *)
Definition reads_only (a : access V) : bool :=
  match a with
  | GetAt _ _ Rvalue | Get _ _ Rvalue | GetOrAt _ _ _ Rvalue | GetOpt _ _ Rvalue | GetUnsafe _ _ Rvalue => false
  | _ => true
  end.

End Spec.
Arguments outcome : clear implicits.
