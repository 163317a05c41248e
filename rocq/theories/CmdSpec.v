(* What a command line config should contain, stated on the declarations. *)
From Coq Require Import Ascii List Bool Arith NArith ZArith.
From Verif Require Import ConvertModel ConfigModel CmdModel.
Import ListNotations.
Local Open Scope nat_scope.

Section Cmd.
Context {real : Type}.
Variable real_of_string : text -> option real.
Notation decl := (@decl real).
Notation variant := (ConvertModel.value real Empty_set).

Definition decl_name (d : decl) : str :=
  match d with DInteger _ n _ | DFloating _ n _ | DString _ n _ | DBoolean n => n end.
(* the argument must be given *)
Definition mandatory (d : decl) : bool :=
  match d with
  | DInteger k _ _ | DFloating k _ _ | DString k _ _ => match k with Optional => false | _ => true end
  | DBoolean _ => false
  end.
Definition text_value {A} (f : A -> variant) (o : option A) : variant := match o with Some a => f a | None => VVoid end.
(* the value of an argument, given the text on the command line, if any; None when
   the config has no such key *)
Definition expected (d : decl) (given : option str) : option variant :=
  match d, given with
  | DInteger _ _ _, Some s => Some (text_value VInteger (int_of_string s))
  | DFloating _ _ _, Some s => Some (text_value ConvertModel.VReal (real_of_string s))
  | DString _ _ _, Some s => Some (VString s)
  | DBoolean _, Some _ => Some (VBoolean true)
  | DInteger Optional _ (Some z), None => Some (VInteger z)
  | DFloating Optional _ (Some r), None => Some (ConvertModel.VReal r)
  | DString Optional _ (Some s), None => Some (VString s)
  | DBoolean _, None => Some (VBoolean false)
  | _, None => None
  end.
(* the argument with the given position in the command line *)
Definition argument (ds : list decl) (given : list (option str)) (n : str) (x : variant) : Prop :=
  exists j d, nth_error ds j = Some d /\ decl_name d = n /\ expected d (nth j given None) = Some x.
End Cmd.
