(* What a program expects of attributes: for each key nothing, or what was last
   set. *)
From Coq Require Import List Bool Arith.
From Verif Require Import LifeModel AnyModel AttrModel.
Import ListNotations.

(* neither key is below the other *)
Definition same_key {K : Type} (ltb : K -> K -> bool) (a b : K) : bool := negb (ltb a b) && negb (ltb b a).

Section Map.
Context {K V : Type}.
Variable keq : K -> K -> bool.
Variable copyable : nat -> bool.

Definition state := nat -> option (K -> option (any V)).
Definition nothing : state := fun _ => None.
Definition put (st : state) (i : nat) (x : option (K -> option (any V))) : state := fun k => if k =? i then x else st k.
Definition with_key (f : K -> option (any V)) (k : K) (x : option (any V)) : K -> option (any V) :=
  fun q => if keq q k then x else f q.

(* every type in the value can be copied *)
Fixpoint deep_copyable (x : val V) : Prop :=
  match x with
  | Plain t _ => copyable t = true
  | Inner None => True
  | Inner (Some y) => deep_copyable y
  end.
Definition any_copyable (c : any V) : Prop := match c with Some x => deep_copyable x | None => True end.
Definition all_copyable (f : K -> option (any V)) : Prop := forall k c, f k = Some c -> any_copyable c.

Definition legal (o : op K V) (st : state) : Prop :=
  match o with
  | New i => st i = None
  | Set_ i _ _ | Clear i _ | Delete i => st i <> None
  | NewCopy i j | NewMove i j => st i = None /\ st j <> None
  | Assign i j => st i <> None /\ exists f, st j = Some f /\ (i <> j -> all_copyable f)
  | AssignMove i j => st i <> None /\ st j <> None /\ i <> j
  | Swap i j => st i <> None /\ st j <> None
  end.

(* what a read shall give after set_attribute with x: a value as itself, an any as
   what it holds; only an any that is neither const nor moved is put into another *)
Definition holds (x : arg V) (c : any V) : Prop :=
  match x with
  | Value t v => c = Some (Plain t v)
  | ConstAny a | MovedAny a => c = a
  | LvalueAny a => c = Some (Inner a)
  end.

Definition effect (o : op K V) (st : state) : state :=
  match o with
  | New i => put st i (Some (fun _ => None))
  | Set_ i k x => match st i with Some f => put st i (Some (with_key f k (Some (any_of x)))) | None => st end
  | Clear i k => match st i with Some f => put st i (Some (with_key f k None)) | None => st end
  | NewCopy i j | Assign i j => put st i (st j)
  | NewMove i j | AssignMove i j => put (put st j (Some (fun _ => None))) i (st j)
  | Swap i j => put (put st j (st i)) i (st j)
  | Delete i => put st i None
  end.

(* Copies of what cannot be copied. *)
Definition must_throw (o : op K V) (st : state) : Prop :=
  match o with
  | Set_ _ _ (ConstAny c) | Set_ _ _ (LvalueAny c) => ~ any_copyable c
  | NewCopy _ j => exists f, st j = Some f /\ ~ all_copyable f
  | _ => False
  end.

Definition same (st st' : state) : Prop :=
  forall i, match st i, st' i with
            | Some f, Some g => forall k, f k = g k
            | None, None => True
            | _, _ => False
            end.

(* What the program can see of a map: f tells what is set. *)
Definition shows (ltb : K -> K -> bool) (m : attrs K V) (f : K -> option (any V)) : Prop :=
  forall k,
    match f k with
    | None =>
        has ltb k m = false /\ get ltb k m = BadAttribute /\
        forall t d, get_as ltb k t m = BadAttribute /\ get_as_or ltb k t d m = d /\ get_optional ltb k t m = None
    | Some c =>
        has ltb k m = true /\ get ltb k m = Ret c /\
        (forall t v d, c = Some (Plain t v) ->
           get_as ltb k t m = Ret v /\ get_as_or ltb k t d m = v /\ get_optional ltb k t m = Some v) /\
        (forall t d, (forall v, c <> Some (Plain t v)) ->
           get_as ltb k t m = BadAttribute /\ get_as_or ltb k t d m = d /\ get_optional ltb k t m = None)
    end.

Definition step (ltb : K -> K -> bool) (o : op K V) (st : state) (w w' : maps K V) (st' : state) : Prop :=
  (exec ltb copyable o w = Some (w', Ret true) /\ same st' (effect o st) /\ ~ must_throw o st) \/
  (exec ltb copyable o w = Some (w', BadCast) /\ same st' st /\ must_throw o st).

(* the states a program can get to, and what it expects there *)
Inductive reach (ltb : K -> K -> bool) : maps K V -> state -> Prop :=
| Reach_start : reach ltb (fun _ => None) nothing
| Reach_step w st o w' st' : reach ltb w st -> legal o st -> step ltb o st w w' st' -> reach ltb w' st'.

(* One map, its history: keys set or cleared.  What was last done to a key. *)
Fixpoint latest (k : K) (l : list (K * option (any V))) : option (any V) :=
  match l with
  | [] => None
  | (q, x) :: l' =>
      if existsb (fun p => keq (fst p) k) l' then latest k l' else if keq q k then x else None
  end.

Definition play (ltb : K -> K -> bool) (l : list (K * option (any V))) : attrs K V :=
  fold_left (fun m p => match snd p with Some c => insert_or_assign ltb (fst p) c m | None => erase ltb (fst p) m end) l [].
End Map.
Arguments state : clear implicits.

Section Atomic.
Context {K V : Type}.
Variable keq : K -> K -> bool.

Inductive aop :=
| Register (k : K) (t : nat) (v : V)
| SetA (k : K) (c : option (val V))
| ClearA (k : K).

Definition aexec (o : aop) (m : atomics K V) : atomics K V :=
  match o with
  | Register k t v => fst (register keq k t v m)
  | SetA k c => fst (set keq k c m)
  | ClearA k => clear keq k m
  end.
Definition arun (l : list aop) : atomics K V := fold_left (fun m o => aexec o m) l [].

(* The type and the value expected for a key after a history, oldest first. *)
Definition upon (k : K) (x : option (nat * V)) (o : aop) : option (nat * V) :=
  match o with
  | Register q t v => if keq q k then Some (t, v) else x
  | SetA q (Some (Plain u y)) =>
      if keq q k then match x with Some (t, v) => if u =? t then Some (t, y) else x | None => None end else x
  | _ => x
  end.
Definition current (k : K) (l : list aop) : option (nat * V) := fold_left (upon k) l None.

(* A key that is never cleared and registered with one type only. *)
Definition regular (k : K) (l : list aop) : Prop :=
  (forall q, In (ClearA q) l -> keq q k = false) /\
  (forall q q' t t' v v', In (Register q t v) l -> In (Register q' t' v') l -> keq q k = true -> keq q' k = true -> t = t').
End Atomic.
Arguments aop : clear implicits.
