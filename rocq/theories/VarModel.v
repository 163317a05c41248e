(* variant: /repo/include/yato/variant.h.

   Types are numbered; type 0 is void.  The list of alternatives belongs to the
   type of a variable, so it is kept with the variable.  A place holds an object
   of one of the types: using it as another type is undefined.  m_type_idx is
   None when it is variant_no_index (255); it can only be that because there
   are at most 254 alternatives (line 371), so a dispatch table indexed with it is
   read out of bounds, which is undefined.

   All alternatives are copyable, movable and assignable (others disable the
   operation for the whole variant).  Arguments of constructors and emplace are
   values, not references into the variant itself.  YATO_REQUIRES is empty
   (release build).  The result of variant_cast is not copied
   (C++17).  operator bool, type(), get_opt and get_unsafe are in
   VaccModel.v.  emplace<void> does not compile (it would return void&). *)
From Coq Require Import List Bool Arith.
From Verif Require Import LifeModel.
Import ListNotations.

Record vf := MkVf { alts : list nat; index : option nat }.

(* meta::list_find *)
Fixpoint list_find (l : list nat) (t : nat) : option nat :=
  match l with
  | [] => None
  | x :: l' => if x =? t then Some 0 else option_map S (list_find l' t)
  end.

Section Var.
Context {V : Type}.
Variable husk0 : V -> V.
Definition husk (x : nat * V) : nat * V := (fst x, husk0 (snd x)).

Local Notation M := (@M (nat * V) vf).
Local Notation "'do' x <- a ; b" := (bind a (fun x => b)) (at level 200, x name, a at level 100, b at level 200).
Local Notation "a ;; b" := (bind a (fun _ => b)) (at level 199, right associativity).

(* the object in the storage of i, used as an object of type t *)
Definition as_type (i t : nat) : M (nat * V) :=
  do x <- read i 0; if fst x =? t then ret x else undef.

Definition set_index (i : nat) (k : option nat) : M unit :=
  do f <- fields i; set_fields i (MkVf (alts f) k).

(* variant_dispatch<...>::apply[idx], lines 330-352 *)
Definition dispatch {A} (i : nat) (idx : option nat) (f : nat -> M A) : M A :=
  do x <- fields i;
  match idx with
  | None => undef
  | Some k => match nth_error (alts x) k with None => undef | Some t => f t end
  end.

(* variant_create, lines 189-207 *)
Definition create_alt (i t : nat) (v : V) : M unit := if t =? 0 then ret tt else construct i 0 (t, v).

(* variant_destroy, lines 210-227 *)
Definition destroy_alt (i t : nat) : M unit := if t =? 0 then ret tt else (as_type i t ;; destroy i 0).

(* variant_copy_construct, lines 229-249; from j to i *)
Definition copy_construct_alt (i j t : nat) : M unit :=
  if t =? 0 then ret tt else (do x <- as_type j t; construct i 0 x).

(* variant_copy_assign, lines 251-272 *)
Definition copy_assign_alt (i j t : nat) : M unit :=
  if t =? 0 then ret tt else (as_type i t ;; do x <- as_type j t; assign i 0 x).

(* variant_move_construct, lines 274-294 *)
Definition move_construct_alt (i j t : nat) : M unit :=
  if t =? 0 then ret tt else (as_type j t ;; move_construct husk i 0 j 0).

(* variant_move_assign, lines 296-317 *)
Definition move_assign_alt (i j t : nat) : M unit :=
  if t =? 0 then ret tt else (as_type i t ;; as_type j t ;; move_assign husk i 0 j 0).

Definition same_index (a b : option nat) : bool :=
  match a, b with
  | None, None => true
  | Some x, Some y => x =? y
  | _, _ => false
  end.

(* copy_construct_, lines 425-429 *)
Definition copy_construct_ (i j : nat) : M unit :=
  do o <- fields j;
  dispatch j (index o) (copy_construct_alt i j) ;; set_index i (index o).

(* copy_assign_, lines 436-449 *)
Definition copy_assign_ (i j : nat) : M unit :=
  do f <- fields i;
  do o <- fields j;
  if same_index (index f) (index o) then dispatch i (index f) (copy_assign_alt i j)
  else dispatch i (index f) (destroy_alt i) ;; set_index i None ;;
       dispatch j (index o) (copy_construct_alt i j) ;; set_index i (index o).

(* move_construct_, lines 456-461 *)
Definition move_construct_ (i j : nat) : M unit :=
  do o <- fields j;
  dispatch j (index o) (move_construct_alt i j) ;; set_index i (index o) ;; set_index j None.

(* move_assign_, lines 468-482 *)
Definition move_assign_ (i j : nat) : M unit :=
  do f <- fields i;
  do o <- fields j;
  (if same_index (index f) (index o) then dispatch i (index f) (move_assign_alt i j)
   else dispatch i (index f) (destroy_alt i) ;; set_index i None ;;
        dispatch j (index o) (move_construct_alt i j) ;; set_index i (index o)) ;;
  set_index j None.

(* ~basic_variant, lines 575-580 *)
Definition destructor (i : nat) : M unit :=
  do f <- fields i;
  match index f with None => ret tt | Some _ => dispatch i (index f) (destroy_alt i) end.

(* emplace, lines 613-631; t is an alternative *)
Definition emplace (i t : nat) (v : V) : M unit :=
  do f <- fields i;
  dispatch i (index f) (destroy_alt i) ;; set_index i None ;;
  create_alt i t v ;; set_index i (list_find (alts f) t).

(* get<Ty_>, lines 669-780: throws when another alternative is stored *)
Definition get (i t : nat) : M V :=
  do f <- fields i;
  match list_find (alts f) t with
  | None => undef                        (* does not compile *)
  | Some k => if same_index (index f) (Some k) then (do x <- as_type i t; ret (snd x)) else throw
  end.

(* get_or<Ty_>, lines 783-841 *)
Definition get_or (i t : nat) (d : V) : M V :=
  do f <- fields i;
  match list_find (alts f) t with
  | None => undef
  | Some k => if same_index (index f) (Some k) then (do x <- as_type i t; ret (snd x)) else ret d
  end.

(* is_type<Ty_>, lines 651-659 *)
Definition is_type (i t : nat) : M bool :=
  do f <- fields i;
  match list_find (alts f) t with
  | None => ret false                    (* list_npos is no index *)
  | Some k => ret (same_index (index f) (Some k))
  end.

(* empty, lines 489-506 and 661-668 *)
Definition empty (i : nat) : M bool := is_type i 0.

(* variant_cast_impl::cast and variant_cast_create, lines 932-1003: the index
   is searched among those of the source's alternatives; [pick] creates the
   target from an object of type t of the source.  The target i has been
   declared with its alternatives. *)
Definition cast (i j : nat) (pick : nat -> M unit) : M unit :=
  do o <- fields j;
  do f <- fields i;
  match index o with
  | None => throw
  | Some k =>
      match nth_error (alts o) k with
      | None => throw
      | Some t => match list_find (alts f) t with
                  | None => throw
                  | Some m => set_index i (Some m) ;; pick t
                  end
      end
  end.

Definition cast_copy (i j : nat) : M unit := cast i j (copy_construct_alt i j).
Definition cast_move (i j : nat) : M unit := cast i j (move_construct_alt i j).

(* What a program can do with variants. *)
Inductive op :=
| NewVoid (i : nat) (l : list nat)               (* variant<l...> i; *)
| NewValue (i : nat) (l : list nat) (t : nat) (v : V)   (* variant<l...> i(v), v of type t *)
| NewCopy (i j : nat)
| NewMove (i j : nat)
| NewCast (i : nat) (l : list nat) (j : nat)     (* auto i = variant_cast<l>(j); *)
| NewCastMove (i : nat) (l : list nat) (j : nat) (* auto i = variant_cast<l>(std::move(j)); *)
| Delete (i : nat)
| Emplace (i t : nat) (v : V)
| CopyAssign (i j : nat)
| MoveAssign (i j : nat).

Definition create1 (i : nat) (l : list nat) (idx : option nat) (body : M unit) : M unit :=
  create i 1 (MkVf l idx) body.

(* the constructors, lines 511-573 *)
Definition exec (o : op) : M unit :=
  match o with
  | NewVoid i l => create1 i l (list_find l 0) (ret tt)
  | NewValue i l t v => create1 i l (list_find l t) (create_alt i t v)
  | NewCopy i j => do o <- fields j; create1 i (alts o) None (copy_construct_ i j)
  | NewMove i j => do o <- fields j; create1 i (alts o) None (move_construct_ i j)
  | NewCast i l j => create1 i l None (cast_copy i j)
  | NewCastMove i l j => create1 i l None (cast_move i j)
  | Delete i => destructor i ;; vanish i 1
  | Emplace i t v => emplace i t v
  | CopyAssign i j => copy_assign_ i j
  | MoveAssign i j => move_assign_ i j
  end.

End Var.
Arguments op : clear implicits.
