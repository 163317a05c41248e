(* Optionals made from other optionals: the constructors of
   /repo/include/yato/optional.h:242-374 and which of them is chosen, the
   conversions to std::optional, the assignments from optionals of other types,
   make_optional, some, map, filter, flatten, and the get_opt of any,
   variant and attributes_map, which end in make_optional.

   The types are a number, bool, any and optionals of these at any depth; a
   std::optional is only a source, or the value type of an optional that is
   converted to std::optional.  Of the constructions of a std::optional only its
   copies are modelled.  An initialization is direct, as all those in optional.h
   are.  None stands for a program that does not compile.  What is left in an
   object that was moved from is not modelled here (C21 has it for moves between
   optionals of one type); nor are exceptions. *)
From Coq Require Import List Bool Arith.
Import ListNotations.

Inductive ty :=
| Num                (* an arithmetic type other than bool *)
| Flag               (* bool *)
| Any                (* yato::any *)
| Opt (t : ty)       (* yato::optional<t> *)
| Std (t : ty).      (* std::optional<t> *)

Inductive value :=
| VNum (n : nat)
| VFlag (b : bool)
| VAny (c : option (ty * value))
| VOpt (c : option value)
| VStd (c : option value).

Fixpoint same (a b : ty) : bool :=
  match a, b with
  | Num, Num | Flag, Flag | Any, Any => true
  | Opt a', Opt b' | Std a', Std b' => same a' b'
  | _, _ => false
  end.

(* the expression an object is made from: a const variable, a variable, a
   temporary or moved variable, and a moved const variable *)
Inductive cat := ConstL | L | R | ConstR.

(* std::is_constructible<t, s>, for s of any category.
   bool: from numbers, and from any and optionals through their explicit
     operator bool (any.h:258-262, optional.h:664-672), which no other arithmetic
     type can use;
   any: from everything (any.h:201-206);
   optional: from its own type, from what its value can be made from (lines
     264-287), and from optionals whose value its value can be made from (lines
     308-328 and 338-364). *)
Fixpoint constructible (t s : ty) : bool :=
  match t with
  | Num => match s with Num | Flag => true | _ => false end
  | Flag => true
  | Any => true
  | Opt t' =>
      same (Opt t') s || constructible t' s ||
      match s with Opt u | Std u => constructible t' u | _ => false end
  | Std t' => same (Std t') s
  end.

(* what a conversion from an optional passes on of it: lines 308-317 and 338-350
   take a const reference and pass one, lines 319-328 and 352-364 move *)
Definition inner (c : cat) : cat := match c with R => R | _ => ConstL end.

(* Does the constructor from Uy_ && (lines 277-287) take an optional as a whole?
   If its value can be made from the optional, then it is the best match for a
   variable, where the others need const, and for a moved const variable, where
   the others take an lvalue reference.  For const variables and temporaries the
   constructors for optionals are as good a match, and either no templates or
   more specialized ones. *)
Definition whole (t s : ty) (c : cat) : bool :=
  match c with L | ConstR => constructible t s | _ => false end.

Definition stored (x : option value) : option value := option_map (fun v => VOpt (Some v)) x.

Definition engaged {A} (c : option A) : bool := match c with Some _ => true | None => false end.

(* new t(expression of type s, category c and value v) *)
Fixpoint build (t s : ty) (c : cat) (v : value) : option value :=
  match t with
  | Num =>
      match v with
      | VNum n => Some (VNum n)
      | VFlag b => Some (VNum (if b then 1 else 0))
      | _ => None
      end
  | Flag =>
      match v with
      | VNum n => Some (VFlag (negb (n =? 0)))
      | VFlag b => Some (VFlag b)
      | VAny o => Some (VFlag (engaged o))      (* any.h:258-262 *)
      | VOpt o => Some (VFlag (engaged o))      (* lines 664-672 *)
      | VStd o => Some (VFlag (engaged o))
      end
  | Any =>                                       (* any.h:201-223 *)
      match s, c with
      | Any, ConstL | Any, R => Some v           (* the copy and the move constructor *)
      | _, _ => Some (VAny (Some (s, v)))        (* the template *)
      end
  | Opt t' =>
      match s, v with
      | Opt u, VOpt o =>
          if whole t' s c then stored (build t' s c v)                      (* lines 277-287 *)
          else if same t' u then Some (VOpt o)                              (* lines 292-305 *)
          else if constructible t' u then                                   (* lines 308-328 *)
            match o with
            | None => Some (VOpt None)
            | Some x => stored (build t' u (inner c) x)
            end
          else if constructible t' s then stored (build t' s c v)           (* lines 264-287 *)
          else None
      | Std u, VStd o =>
          if whole t' s c then stored (build t' s c v)                      (* lines 277-287 *)
          else if constructible t' u then                                   (* lines 338-364 *)
            match o with
            | None => Some (VOpt None)
            | Some x => stored (build t' u (inner c) x)
            end
          else if constructible t' s then stored (build t' s c v)           (* lines 264-287 *)
          else None
      | _, _ => if constructible t' s then stored (build t' s c v) else None (* lines 264-287 *)
      end
  | Std _ => match s with Std _ => if same t s then Some v else None | _ => None end
  end.

(* make_optional (lines 1122-1129), make_optional_ (lines 883-889) and some (lines
   1131-1141), which
   takes its argument by value and moves it *)
Definition make (t : ty) (c : cat) (v : value) : option value := build (Opt t) t c v.
Definition some (t : ty) (v : value) : option value := build (Opt t) t R v.

(* map_impl_, lines 1005-1012: f returns an expression of type t and category c,
   a temporary unless it returns a reference *)
Definition map (t : ty) (c : cat) (f : value -> value) (o : option value) : option value :=
  match o with
  | Some x => make t c (f x)
  | None => Some (VOpt None)
  end.

(* filter_impl_, lines 1014-1021, of an optional<t> of category c *)
Definition filter (t : ty) (c : cat) (p : value -> bool) (o : option value) : option value :=
  match o with
  | Some x => if p x then build (Opt t) (Opt t) c (VOpt o) else Some (VOpt None)
  | None => Some (VOpt None)
  end.

(* flatten_impl_, lines 1030-1068, of an optional<t> *)
Fixpoint flatten (t : ty) (v : value) : value :=
  match t with
  | Opt t' =>
      match v with
      | VOpt (Some x) => flatten t' x
      | _ => VOpt None
      end
  | _ => v
  end.

(* std::is_convertible<s, t>, for s that is not an optional: any's constructor
   from values is explicit, as are the operators bool *)
Fixpoint implicit (t s : ty) : bool :=
  match t with
  | Num | Flag => match s with Num | Flag => true | _ => false end
  | Any => same Any s
  | Opt t' => implicit t' s
  | Std t' => same (Std t') s
  end.

(* operator= from an optional of another type, lines 406-427, copy_assign_ and
   move_assign_, lines 958-988.  If both have a value then that of the left is
   assigned to: an arithmetic type converts, an any takes a new value
   (any.h:245-251), and an optional is assigned to in the same way, or from a
   temporary of its type.  Otherwise the value is constructed. *)
Fixpoint assign (t u : ty) (c : cat) (old new : option value) : option value :=
  if same t u then Some (VOpt new) else
  if constructible t u then
    match old, new with
    | Some y, Some x =>
        stored match t, u, y, x with
               | Opt t', Opt u', VOpt y', VOpt x' => assign t' u' (inner c) y' x'
               | Any, _, _, _ => build t u (inner c) x
               | _, _, _, _ => if implicit t u then build t u (inner c) x else None
               end
    | _, None => Some (VOpt None)
    | None, Some x => stored (build t u (inner c) x)
    end
  else None.

(* any::get_opt, any.h:376-390: const or not; the content is given *)
Definition any_get_opt (t : ty) (is_const : bool) (content : option (ty * value)) : option value :=
  match content with
  | Some (u, x) => if same u t then make t (if is_const then ConstL else L) x else Some (VOpt None)
  | None => Some (VOpt None)
  end.

(* get_opt of a variant, variant.h:842-877: of a variable, const or not, or of a
   temporary; the alternative and its value are given *)
Definition variant_get_opt (t : ty) (c : cat) (u : ty) (x : value) : option value :=
  if same u t then make t (match c with R => R | _ => ConstL end) x else Some (VOpt None).

(* attributes_map::get_attribute_optional, attributes_interface.h:311-327 *)
Definition get_attribute_optional (t : ty) (attr : option (option (ty * value))) : option value :=
  match attr with
  | Some (Some (u, x)) => if same u t then make t R x else Some (VOpt None)
  | _ => Some (VOpt None)
  end.

(* operator std::optional<t> of an optional<t>, lines 429-455.  The type of
   std::optional(x) is deduced: if x is itself a std::optional then it is a copy
   of x, and a std::optional of that type is made of it, or of std::nullopt. *)
Definition to_std (t : ty) (o : option value) : value :=
  match t with
  | Std _ => VStd (Some (match o with Some x => x | None => VStd None end))
  | _ => VStd o
  end.
