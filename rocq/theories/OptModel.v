(* optional: /repo/include/yato/optional.h:40-121 and 225-1090, with
   the storage for types that are not pointers.

   One place per optional, number 0.  [stored] is m_stored.  The value of type
   Ty_ passed to emplace or a constructor is a value, except in [EmplaceFrom],
   where it is the object inside another optional.  Conversions from optionals
   of other types, std::optional interoperability, visit and flatten are not
   modelled; `opt = value` is the composition of NewValue on a temporary,
   MoveAssign and Delete.  YATO_REQUIRES is empty (release build). *)
From Coq Require Import List Bool Arith.
From Verif Require Import LifeModel.
Import ListNotations.

Section Opt.
Context {V : Type}.
Variable husk : V -> V.

Local Notation M := (@M V bool).
Local Notation "'do' x <- a ; b" := (bind a (fun x => b)) (at level 200, x name, a at level 100, b at level 200).
Local Notation "a ;; b" := (bind a (fun _ => b)) (at level 199, right associativity).

(* m_storage.is_stored() *)
Definition is_stored (i : nat) : M bool := fields i.

(* construct_, lines 901-907 *)
Definition construct_ (i : nat) (v : V) : M unit := construct i 0 v ;; set_fields i true.
Definition move_construct_ (i j : nat) : M unit := move_construct husk i 0 j 0 ;; set_fields i true.

(* destroy_, lines 909-915 *)
Definition destroy_ (i : nat) : M unit :=
  do b <- is_stored i;
  if b then (destroy i 0 ;; set_fields i false) else ret tt.

(* copy_constructor_, lines 933-943 *)
Definition copy_constructor_ (i j : nat) : M unit :=
  do b <- is_stored j;
  if b then (do v <- read j 0; construct_ i v) else set_fields i false.

(* move_constructor_, lines 945-956 *)
Definition move_constructor_ (i j : nat) : M unit :=
  do b <- is_stored j;
  if b then (move_construct_ i j ;; destroy_ j) else set_fields i false.

(* swap_, lines 917-931 *)
Definition swap_ (i j : nat) : M unit :=
  do b <- is_stored i;
  do c <- is_stored j;
  if b && c then swap_objects husk i 0 j 0
  else if c then move_constructor_ i j
  else destroy_ i.

(* copy_assign_, lines 958-972 *)
Definition copy_assign_ (i j : nat) : M unit :=
  do b <- is_stored i;
  do c <- is_stored j;
  if b && c then (do v <- read j 0; assign i 0 v)
  else destroy_ i ;;
       if c then (do v <- read j 0; construct_ i v) else ret tt.

(* move_assign_, lines 974-988 *)
Definition move_assign_ (i j : nat) : M unit :=
  do b <- is_stored i;
  do c <- is_stored j;
  if b && c then move_assign husk i 0 j 0
  else destroy_ i ;;
       if c then move_construct_ i j else ret tt.

(* emplace, lines 375-385; the argument is evaluated by the constructor *)
Definition emplace (i : nat) (v : V) : M unit := destroy_ i ;; construct_ i v.
Definition emplace_from (i j : nat) : M unit := destroy_ i ;; (do v <- read j 0; construct_ i v).

(* get, lines 469-513: throws when empty *)
Definition get (i : nat) : M V :=
  do b <- is_stored i;
  if b then read i 0 else throw.

(* get_or, lines 566-575 *)
Definition get_or (i : nat) (d : V) : M V :=
  do b <- is_stored i;
  if b then read i 0 else ret d.

(* exists_impl_, lines 1023-1028 *)
Definition exists_ (i : nat) (p : V -> bool) : M bool :=
  do b <- is_stored i;
  if b then (do v <- read i 0; ret (p v)) else ret false.

(* filter_impl_, lines 1014-1021, of an lvalue and of an rvalue *)
Definition filter_copy (i j : nat) (p : V -> bool) : M unit :=
  do b <- exists_ j p;
  if b then copy_constructor_ i j else ret tt.
Definition filter_move (i j : nat) (p : V -> bool) : M unit :=
  do b <- exists_ j p;
  if b then move_constructor_ i j else ret tt.

(* map_impl_, lines 1005-1012, to the same type *)
Definition map_ (i j : nat) (f : V -> V) : M unit :=
  do b <- is_stored j;
  if b then (do v <- read j 0; construct_ i (f v)) else ret tt.

(* basic_optional<Ty_> i(j) where j is a non-const lvalue and Ty_ is bool.  The
   constructor template of lines 277-287 takes j as Uy_ && with Uy_ =
   basic_optional<bool> &, a better match than the copy constructor's const
   reference, and is enabled because bool can be constructed from an optional
   through its explicit operator bool (lines 664-672).  For other arithmetic
   types it is disabled. *)
Definition copy_nonconst (of_flag : bool -> V) (i j : nat) : M unit :=
  do b <- is_stored j; construct_ i (of_flag b).

(* What a program can do with variables of type optional<Ty_>. *)
Inductive op :=
| New (i : nat)                       (* optional<Ty_> i; *)
| NewValue (i : nat) (v : V)          (* optional<Ty_> i(v); *)
| NewCopy (i j : nat)                 (* optional<Ty_> i(as_const(j)); *)
| NewMove (i j : nat)                 (* optional<Ty_> i(std::move(j)); *)
| NewFilter (i j : nat) (p : V -> bool)       (* optional<Ty_> i = j.filter(p); *)
| NewFilterMove (i j : nat) (p : V -> bool)   (* optional<Ty_> i = std::move(j).filter(p); *)
| NewMap (i j : nat) (f : V -> V)     (* optional<Ty_> i = j.map(f); *)
| Delete (i : nat)                    (* end of the lifetime of i *)
| Emplace (i : nat) (v : V)
| EmplaceFrom (i j : nat)             (* i.emplace(j.get_unsafe()); *)
| Reset (i : nat)
| CopyAssign (i j : nat)
| MoveAssign (i j : nat)
| Swap (i j : nat).

Definition create1 (i : nat) (body : M unit) : M unit := create i 1 false body.

Definition exec (o : op) : M unit :=
  match o with
  | New i => create1 i (ret tt)
  | NewValue i v => create1 i (construct_ i v)
  | NewCopy i j => create1 i (copy_constructor_ i j)
  | NewMove i j => create1 i (move_constructor_ i j)
  | NewFilter i j p => create1 i (filter_copy i j p)
  | NewFilterMove i j p => create1 i (filter_move i j p)
  | NewMap i j f => create1 i (map_ i j f)
  | Delete i => destroy_ i ;; vanish i 1
  | Emplace i v => emplace i v
  | EmplaceFrom i j => emplace_from i j
  | Reset i => destroy_ i
  | CopyAssign i j => copy_assign_ i j
  | MoveAssign i j => move_assign_ i j
  | Swap i j => swap_ i j
  end.

End Opt.
Arguments op : clear implicits.
