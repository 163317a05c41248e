(* What a program expects of the small wrappers. *)
From Coq Require Import List Bool Arith.
From Verif Require Import HoldModel.
Import ListNotations.

(* The past of a program, latest operation first, says which pointer of which
   type a variable was given. *)
Fixpoint given (past : list aop) (i : nat) : option (ptype * nat) :=
  match past with
  | [] => None
  | AGive i' c v b p :: past' => if i =? i' then Some (PtrTo c v b, p) else given past' i
  | ANull i' :: past' => if i =? i' then Some (NullT, 0) else given past' i
  | ACopy i' j :: past' =>
      if i =? i' then match given past' j with Some x => Some x | None => given past' i end
      else given past' i
  end.

Fixpoint n_given (past : list nop) (i : nat) : option nat :=
  match past with
  | [] => None
  | NMake i' p :: past' => if i =? i' then Some p else n_given past' i
  | NCopy i' j :: past' =>
      if i =? i' then match n_given past' j with Some x => Some x | None => n_given past' i end
      else n_given past' i
  end.

(* a null pointer is passed to a wrapper *)
Definition nulls (o : nop) : bool := match o with NMake _ 0 => true | _ => false end.

(* what a smart pointer holds after a past *)
Fixpoint holds (past : list sop) (i : nat) : option nat :=
  match past with
  | [] => None
  | SSet i' p :: past' => if i =? i' then Some p else holds past' i
  | SGone i' :: past' => if i =? i' then None else holds past' i
  | SWrap _ _ :: past' => holds past' i
  end.

(* the smart pointer that a wrapper was made from last *)
Fixpoint wraps (past : list sop) (k : nat) : option nat :=
  match past with
  | [] => None
  | SWrap k' i :: past' =>
      if k =? k' then match holds past' i with Some _ => Some i | None => wraps past' k end
      else wraps past' k
  | _ :: past' => wraps past' k
  end.

(* A pair as a pair of values. *)
Definition expect_ctor (t1 t2 : mtype) (c : ctor) : nat * nat :=
  match c with
  | CDefault => (value_init t1, value_init t2)
  | CZero a => (value_init t1, match a with Some v => from t2 v | None => value_init t2 end)
  | COne v a => (from t1 v, match a with Some v => from t2 v | None => value_init t2 end)
  end.

(* A member left without a value by `compressed_pair p;` *)
Definition has_values (t1 t2 : mtype) (c : ctor) : Prop :=
  match c with
  | CDefault => compressed t1 = true \/
      ((is_empty t1 = true \/ trivial t1 = false) /\ (is_empty t2 = true \/ trivial t2 = false))
  | _ => True
  end.

(* Which accesses compile, and to what. *)
Definition names_first (t1 t2 : mtype) (a : access) : Prop :=
  a = First \/ a = Index false 0 \/ (a = ByType (name t1) /\ name t1 <> name t2).
Definition names_second (t1 t2 : mtype) (a : access) : Prop :=
  a = Second \/ a = Index false 1 \/ (a = ByType (name t2) /\ name t1 <> name t2).

(* Assignments through accesses that compile, to a pair of values. *)
Inductive written (t1 t2 : mtype) : list (access * nat) -> nat * nat -> nat * nat -> Prop :=
| written_nil p : written t1 t2 [] p p
| written_first a v l x y r : names_first t1 t2 a -> written t1 t2 l (from t1 v, y) r -> written t1 t2 ((a, v) :: l) (x, y) r
| written_second a v l x y r : names_second t1 t2 a -> written t1 t2 l (x, from t2 v) r -> written t1 t2 ((a, v) :: l) (x, y) r.
