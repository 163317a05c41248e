(* any_match and variant_match: include/yato/case_dispatcher.h, any_match.h,
   variant_match.h.

   Types are numbered; two of them are the tags match_empty_t and match_default_t.
   What is matched is a value of a type, or nothing (the type void of an empty any
   or variant), and is passed as a constant or not, as an lvalue or rvalue.  A case
   is a callable with one parameter, given by the type of the parameter without
   reference and const, and by its form.

   Simplifications.  Callables with overloaded or generic parameters cannot be
   cases (callable_trait needs one signature).  The result types are taken to be
   the same; that a tag cannot be bound to the parameter of its case, which does
   not compile, is [compiles]. *)
From Coq Require Import List Bool Arith.
Import ListNotations.

Definition empty_t : nat := 0.
Definition default_t : nat := 1.

(* const Any &, Any &, const Any &&, Any && : case_dispatcher.h 143-165 *)
Inductive category := ConstL | MutL | ConstR | MutR.

(* T or const T, T &, const T &, T &&, const T && *)
Inductive form := ByValue | Ref | ConstRef | RRef | ConstRRef.

Record case := Case { arg : nat; shape : form }.

(* how the parameter of the callable is made *)
Inductive passing := TheObject | ACopy | MovedOut.

Inductive outcome :=
  | Called (i : nat) (p : passing)      (* case i, with the stored value *)
  | CalledEmpty (i : nat)
  | CalledDefault (i : nat)
  | BadMatch                            (* throws bad_match_error *)
  | WrongType.                          (* get_unsafe of another type: undefined *)

Section Model.
Variables copyable movable : nat -> bool.   (* which types can be constructed from const T &, from T && *)

(* lines 85-96 case_is_callable<Fy_, Arg_, Val_>, where Val_, the result of
   get_unsafe<T> (any.h 335-373, variant.h 878-916), is const T &, T &,
   const T && or T && for the four categories: references by is_convertible *)
Definition callable (c : case) (a : category) : bool :=
  match shape c with
  | ByValue => match a with MutR => movable (arg c) || copyable (arg c) | _ => copyable (arg c) end
  | Ref => match a with MutL => true | _ => false end
  | ConstRef => true
  | RRef => match a with MutR => true | _ => false end
  | ConstRRef => match a with MutR | ConstR => true | _ => false end
  end.

(* binding the parameter to the result of get_unsafe *)
Definition pass (c : case) (a : category) : passing :=
  match shape c with
  | ByValue => match a with MutR => if movable (arg c) then MovedOut else ACopy | _ => ACopy end
  | _ => TheObject
  end.

(* lines 49-67 find_match_case: from the last case to the first; None: npos *)
Fixpoint find_match_case (t : nat) (cases : list case) (len : nat) : option nat :=
  match len with
  | 0 => None
  | S len' =>
      match nth_error cases len' with
      | Some c => if arg c =? t then Some len' else find_match_case t cases len'
      | None => None
      end
  end.

(* any.h 335-373: the holder is taken to be of the type asked for *)
Definition get_unsafe (stored t : nat) (o : outcome) : outcome := if stored =? t then o else WrongType.

(* lines 99-139 match_dispatcher_impl::invoke_case, Len_ cases being left *)
Fixpoint invoke_case (stored : nat) (cases : list case) (a : category) (on_default : outcome) (len : nat) : outcome :=
  match len with
  | 0 => on_default
  | S len' =>
      let case_index := length cases - S len' in
      match nth_error cases case_index with
      | None => WrongType
      | Some c =>
          if callable c a then
            if arg c =? stored then get_unsafe stored (arg c) (Called case_index (pass c a))
            else invoke_case stored cases a on_default len'
          else invoke_case stored cases a on_default len'
      end
  end.

(* lines 168-184 *)
Definition on_default (cases : list case) : outcome :=
  match find_match_case default_t cases (length cases) with
  | Some i => CalledDefault i
  | None => BadMatch
  end.

(* lines 187-206 match_impl_; None: the type is void *)
Definition matches (cases : list case) (a : category) (stored : option nat) : outcome :=
  match find_match_case empty_t cases (length cases) with
  | Some i =>
      match stored with
      | None => CalledEmpty i
      | Some t => invoke_case t cases a (on_default cases) (length cases)
      end
  | None =>
      match stored with
      | None => on_default cases
      | Some t => invoke_case t cases a (on_default cases) (length cases)
      end
  end.
End Model.

(* std::get<index>(cases)(match_default_t{}) and (match_empty_t{}): an rvalue *)
Definition tag_fits (c : case) : bool := match shape c with Ref => false | _ => true end.
Definition compiles (cases : list case) : bool :=
  forallb (fun t => match find_match_case t cases (length cases) with
                    | Some i => match nth_error cases i with Some c => tag_fits c | None => true end
                    | None => true
                    end) [empty_t; default_t].
