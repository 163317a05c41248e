(* What a program expects of its dynamic arrays: each has a size, an allocator
   and elements.  After a failure an array may have a size but no elements, or
   only the first of them.  Elements the program can no longer reach are kept in
   a list. *)
From Coq Require Import List Bool Arith.
From Verif Require Import LifeModel DynModel.
Import ListNotations.

Section Spec.
Context {V : Type}.
Variable zero : V.
Variable std_alloc : nat.
Variables propagates_move propagates_swap : bool.

Record arr := Arr { al : nat; sz : nat; elems : option (list V) }.
Record state := MkState { var : nat -> option arr; stray : list (list V) }.

Definition nothing : state := MkState (fun _ => None) [].

(* no memory, or all its elements *)
Definition whole (a : arr) : Prop := match elems a with Some l => length l = sz a | None => True end.

Definition put (st : state) (i : nat) (x : option arr) : state :=
  MkState (fun k => if k =? i then x else var st k) (stray st).
Definition abandon (st : state) (x : option (list V)) : state :=
  MkState (var st) (match x with Some l => l :: stray st | None => stray st end).

Definition emptied (a : arr) : arr := match elems a with Some _ => Arr (al a) 0 None | None => a end.

Definition legal (o : op V) (st : state) : Prop :=
  match o with
  | New i _ | NewSize i _ _ | NewValue i _ _ _ | NewList i _ _ => var st i = None
  | NewMove i j => var st i = None /\ var st j <> None
  | Delete i | Assign i _ _ | Resize i _ | Clear i => exists a, var st i = Some a /\ whole a
  | AssignMove i j => var st i <> None /\ var st j <> None
  | Swap i j => propagates_swap = true /\ var st i <> None /\ var st j <> None
  | Write i k _ => exists a l, var st i = Some a /\ elems a = Some l /\ k < length l
  | AssignList _ _ | AssignOwn _ _ _ => False
  end.

(* the elements an operation builds *)
Definition builds (o : op V) : list V :=
  match o with
  | NewSize _ n _ | Resize _ n => repeat zero n
  | NewValue _ n v _ | Assign _ n v => repeat v n
  | NewList _ l _ => l
  | _ => []
  end.

(* The effect of an operation that returns. *)
Definition effect (o : op V) (st : state) : state :=
  match o with
  | New i a => put st i (Some (Arr a 0 None))
  | NewSize i _ a | NewValue i _ _ a | NewList i _ a =>
      put st i (Some (Arr a (length (builds o)) (Some (builds o))))
  | NewMove i j =>
      match var st j with
      | Some b => put (put st j (Some (Arr (al b) 0 None))) i (Some b)
      | None => st
      end
  | Delete i => put st i None
  | AssignMove i j =>
      if i =? j then st else
      match var st i, var st j with
      | Some a, Some b => abandon (put (put st i (Some b)) j (Some (Arr (al b) 0 None))) (elems a)
      | _, _ => st
      end
  | Swap i j => put (put st j (var st i)) i (var st j)
  | Assign i _ _ | Resize i _ =>
      match var st i with
      | Some a => put st i (Some (Arr (al a) (length (builds o)) (Some (builds o))))
      | None => st
      end
  | Clear i => match var st i with Some a => put st i (Some (emptied a)) | None => st end
  | Write i k v =>
      match var st i with
      | Some a => put st i (Some (Arr (al a) (sz a) (option_map (fun l => poke l k v) (elems a))))
      | None => st
      end
  | AssignList _ _ | AssignOwn _ _ _ => st
  end.

(* Moves that throw because the allocator cannot be taken over. *)
Definition must_throw (o : op V) (st : state) : Prop :=
  match o with
  | NewMove _ j => propagates_move = false /\ exists b, var st j = Some b /\ al b <> std_alloc
  | AssignMove i j => propagates_move = false /\ i <> j /\
      exists a b, var st i = Some a /\ var st j = Some b /\ al a <> al b
  | _ => False
  end.

(* The effects of an operation in which an allocation or an element's
   constructor throws: a new variable does not exist, but the elements built for
   it do; an old one has lost its elements, but has the new size and the
   elements built. *)
Definition failure (o : op V) (st st' : state) : Prop :=
  match o with
  | NewSize _ _ _ | NewValue _ _ _ _ | NewList _ _ _ =>
      st' = st \/ exists k, k < length (builds o) /\ st' = abandon st (Some (firstn k (builds o)))
  | Assign i _ _ | Resize i _ =>
      exists a, var st i = Some a /\
        (st' = put st i (Some (Arr (al a) (length (builds o)) None)) \/
         exists k, k < length (builds o) /\
           st' = put st i (Some (Arr (al a) (length (builds o)) (Some (firstn k (builds o))))))
  | _ => False
  end.

Definition same (st st' : state) : Prop := (forall k, var st k = var st' k) /\ stray st = stray st'.

Definition step (o : op V) (st : state) (w w' : dworld V) (st' : state) : Prop :=
  (exec zero std_alloc propagates_move propagates_swap o w = Done tt w' /\ same st' (effect o st) /\ ~ must_throw o st) \/
  (exec zero std_alloc propagates_move propagates_swap o w = Threw w' /\
     ((must_throw o st /\ same st' st) \/
      (fails w <> [] /\ exists st1, failure o st st1 /\ same st' st1))).

(* What the program can see. *)
Definition seen (w : dworld V) (st : state) : Prop :=
  forall i a, var st i = Some a ->
    size i w = Done (sz a) w /\ empty i w = Done (sz a =? 0) w /\ get_allocator i w = Done (al a) w /\
    (forall k, sz a <= k -> at_ i k w = Threw w) /\
    (forall l, elems a = Some l -> length l <= sz a /\
       forall k v, nth_error l k = Some v -> index i k w = Done v w /\ at_ i k w = Done v w) /\
    (forall l v, elems a = Some (v :: l) -> front i w = Done v w) /\
    (forall l v, elems a = Some (l ++ [v]) -> whole a -> back i w = Done v w).

Definition holds (x : option arr) : nat :=
  match x with Some a => match elems a with Some l => length l | None => 0 end | None => 0 end.
Definition owns (x : option arr) : nat :=
  match x with Some a => match elems a with Some _ => 1 | None => 0 end | None => 0 end.

(* the sum over all variables below n *)
Fixpoint total (f : option arr -> nat) (st : state) (n : nat) : nat :=
  match n with 0 => 0 | S m => total f st m + f (var st m) end.

(* The objects alive are the elements held and those abandoned; the blocks not
   returned likewise; no two arrays share one. *)
Definition balanced (w : dworld V) (st : state) : Prop :=
  (forall i j f g b, arrays w i = Some f -> arrays w j = Some g -> m_data f = Some b -> m_data g = Some b -> i = j) /\
  forall n, (forall i, n <= i -> var st i = None) ->
    made w = unmade w + total holds st n + list_sum (map (@length V) (stray st)) /\
    obtained w = returned w + total owns st n + length (stray st).

Fixpoint run (l : list (op V)) (w : dworld V) : option (dworld V) :=
  match l with
  | [] => Some w
  | o :: l' =>
      match exec zero std_alloc propagates_move propagates_swap o w with
      | Done _ w' => run l' w'
      | Threw w' => run l' w'
      | Undef => None
      end
  end.

(* Histories in which nothing but a refused move throws. *)
Inductive follows : list (op V) -> state -> state -> Prop :=
| follows_nil st : follows [] st st
| follows_done o l st st' : legal o st -> ~ must_throw o st -> follows l (effect o st) st' -> follows (o :: l) st st'
| follows_threw o l st st' : legal o st -> must_throw o st -> follows l st st' -> follows (o :: l) st st'.

End Spec.
Arguments arr : clear implicits.
Arguments state : clear implicits.
