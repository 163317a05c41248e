(* Model of compile time choices of /repo/include/yato: type_match.h:16-90 and, of
   type_traits.h, is_same, one_of, has_trait (241-281), wider_type (126-143) and
   narrowest_fit (534-571); of primitive_types.h make_type (62-135). *)
From Coq Require Import List Bool Arith ZArith.
From Verif Require Import ConvertModel.
Import ListNotations.
Open Scope nat_scope.

(* ---- type_match.h ---- *)
(* A case is the type of its parameter, as the overloads _invoke_case have it: without
   const at the top.  rank orders the conversions of an argument to a parameter, the
   best first; None: there is none. *)
Section Match.
Variable rank : nat -> nat -> option nat.
(* match_dispatcher 19-37: the overload of case i is declared in a class derived from
   that of the cases before it, which hides an inherited one of the same parameter *)
Fixpoint overloads (cases : list nat) (i : nat) : list (nat * nat) :=
  match i with
  | 0 => []                                                        (* 39-43: takes no argument *)
  | S k => match nth_error cases k with
           | None => []
           | Some p => (k, p) :: filter (fun q => negb (Nat.eqb (snd q) p)) (overloads cases k)
           end
  end.
Definition viable (a : nat) (os : list (nat * nat)) : list (nat * nat) :=
  flat_map (fun q => match rank a (snd q) with Some r => [(fst q, r)] | None => [] end) os.
(* overload resolution: the candidate better than every other, else ill-formed *)
Definition best (vs : list (nat * nat)) : option nat :=
  match filter (fun q => forallb (fun x => Nat.eqb (fst x) (fst q) || (snd q <? snd x)) vs) vs with
  | [(i, _)] => Some i
  | _ => None
  end.
(* type_matcher::operator() 58-68: the number of the case called *)
Definition matched (cases : list nat) (a : nat) : option nat := best (viable a (overloads cases (length cases))).
End Match.

(* ---- type_traits.h ---- *)
(* is_same 241-251 *)
Fixpoint is_same (a : nat) (l : list nat) : bool :=
  match l with
  | [] => true                                       (* not declared; never reached from two types *)
  | b :: [] => Nat.eqb a b
  | b :: t => Nat.eqb a b && is_same b t
  end.
(* one_of 257-265 *)
Fixpoint one_of (a : nat) (l : list nat) : bool :=
  match l with
  | [] => false                                      (* not declared *)
  | b :: [] => Nat.eqb a b
  | b :: t => Nat.eqb a b || one_of a t
  end.
(* has_trait 271-281 *)
Fixpoint has_trait (trait : nat -> bool) (l : list nat) : bool :=
  match l with
  | [] => true                                       (* not declared *)
  | a :: [] => trait a
  | a :: t => trait a && has_trait trait t
  end.
Open Scope Z_scope.
(* wider_type 129-141; the floating point types are left out *)
Definition wider_type (t : ity) : option ity :=
  match t with
  | Int s 8 => Some (Int s 16) | Int s 16 => Some (Int s 32) | Int s 32 => Some (Int s 64) | Int s 64 => Some (Int s 64)
  | _ => None
  end.
(* make_type: signed_type_tag or unsigned_type_tag *)
Definition make_type (signed : bool) (size : Z) : option ity :=
  if existsb (Z.eqb size) [8; 16; 32; 64] then Some (Int signed size) else None.
(* std::numeric_limits *)
Definition min_of (t : ity) : Z := match t with Int true n => - 2 ^ (n - 1) | _ => 0 end.
Definition max_of (t : ity) : Z := match t with Int true n => 2 ^ (n - 1) - 1 | Int false n => 2 ^ n - 1 | Bool => 1 end.
(* fits_type 536-541 *)
Definition fits_type (dst value_type : ity) (v : Z) : bool :=
  (cast value_type (min_of dst) <=? v) && (v <=? cast value_type (max_of dst)).
(* narrowest_fit_impl 543-558; None is void, which is also what an undeclared
   make_type would be here; steps bounds the recursion, that ends as size doubles *)
Fixpoint narrowest_fit_impl (signed : bool) (value_type : ity) (v size : Z) (steps : nat) : option (option ity) :=
  match steps with
  | O => None
  | S k =>
      if 64 <? size then Some None
      else match make_type signed size, narrowest_fit_impl signed value_type v (2 * size) k with
           | Some t, Some r => Some (if fits_type t value_type v then Some t else r)
           | _, _ => None
           end
  end.
(* 561-571 *)
Definition narrowest_fit_unsigned (v : Z) : option (option ity) := narrowest_fit_impl false (Int false 64) v 8 9.
Definition narrowest_fit_signed (v : Z) : option (option ity) := narrowest_fit_impl true (Int true 64) v 8 9.
