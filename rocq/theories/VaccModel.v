(* The accessors of variant by value category, and what converts to bool:
   /repo/include/yato/variant.h:402-412, 489-506, 604-916.

   On top of VarModel.v: the same storage, with an access added to the things a
   program does.  An access is an initialisation [T x = e.get<T>()] where e is
   the variant as an lvalue, a const lvalue, an rvalue or a const rvalue: what
   the accessor returns by reference is then copied or moved, which may throw
   like every operation of an element type.  get_or and get_opt return objects
   and are noexcept: if the copy in them throws, the program is terminated.

   Simplified: the default of get_or is a value of the alternative's type (it
   is converted with static_cast; one operation that may throw).  The result of
   get_opt is constructed once.  References that are kept are read with Look. *)
From Coq Require Import List Bool Arith.
From Verif Require Import LifeModel VarModel.
Import ListNotations.

Inductive cat := Lvalue | ConstLvalue | Rvalue | ConstRvalue.

Inductive shown (V : Type) :=
| Value (v : V)
| Maybe (o : option V)
| Answer (b : bool)
| Index (k : nat)
| TypeIs (t : nat)
| BadAccess               (* bad_variant_access was thrown *)
| ElementThrew.           (* an operation of the alternative threw *)
Arguments Value {V}. Arguments Maybe {V}. Arguments Answer {V}. Arguments Index {V}. Arguments TypeIs {V}.
Arguments BadAccess {V}. Arguments ElementThrew {V}.

(* how an access ends *)
Inductive ending (V : Type) :=
| Shows (x : shown V) (w : world (nat * V) vf)
| Terminated              (* an exception left a noexcept function *)
| Nonsense.               (* undefined behaviour *)
Arguments Shows {V}. Arguments Terminated {V}. Arguments Nonsense {V}.

Inductive access (V : Type) :=
| TypeIndex (i : nat)
| Type_ (i : nat)
| IsType (i t : nat)
| IsEmpty (i : nat)
| ToBool (i : nat)                            (* if (i), and every implicit conversion *)
| Equal (i j : nat)                           (* i == j *)
| GetAt (i k : nat) (c : cat)                 (* T x = i.get<k>(); *)
| Get (i t : nat) (c : cat)                   (* T x = i.get<T>(); *)
| GetOrAt (i k : nat) (d : V) (c : cat)       (* T x = i.get_or<k>(d); *)
| GetOr (i t : nat) (d : V) (c : cat)
| GetOpt (i t : nat) (c : cat)
| GetUnsafe (i t : nat) (c : cat)             (* T x = i.get_unsafe<T>(); *)
| Look (i t : nat).                           (* reading through a T & that was obtained from i *)
Arguments TypeIndex {V}. Arguments Type_ {V}. Arguments IsType {V}. Arguments IsEmpty {V}. Arguments ToBool {V}.
Arguments Equal {V}. Arguments GetAt {V}. Arguments Get {V}. Arguments GetOrAt {V}. Arguments GetOr {V}.
Arguments GetOpt {V}. Arguments GetUnsafe {V}. Arguments Look {V}.

Section Vacc.
Context {V : Type}.
Variable husk0 : V -> V.
Local Notation M := (@M (nat * V) vf).
Local Notation "'do' x <- a ; b" := (bind a (fun x => b)) (at level 200, x name, a at level 100, b at level 200).
Local Notation "a ;; b" := (bind a (fun _ => b)) (at level 199, right associativity).

(* constructing an object somewhere else from the value v *)
Definition make (v : V) : M V := do b <- next_throws; if b then throw else ret v.

(* *address_<T>(), lines 402-412, copied or moved from *)
Definition fetch (i t : nat) (moved : bool) : M V :=
  do x <- as_type i t;
  if moved then (do v <- make (snd x); hollow (husk husk0) i 0 ;; ret v) else make (snd x).

(* does the program get an rvalue that is not const? *)
Definition movable (c : cat) : bool := match c with Rvalue => true | _ => false end.

Definition plain_end (f : V -> shown V) (m : M V) (w : world (nat * V) vf) : ending V :=
  match m w with
  | Done v w' => Shows (f v) w'
  | Threw w' => Shows ElementThrew w'
  | Undef => Nonsense
  end.
Definition noexcept_end (f : V -> shown V) (m : M V) (w : world (nat * V) vf) : ending V :=
  match m w with
  | Done v w' => Shows (f v) w'
  | Threw _ => Terminated
  | Undef => Nonsense
  end.

(* is_empty_, lines 489-506 *)
Definition is_empty_ (i : nat) : M bool :=
  do f <- fields i;
  match list_find (alts f) 0 with
  | Some k => ret (same_index (index f) (Some k))
  | None => ret false
  end.

Definition observe {A} (f : A -> shown V) (m : M A) (w : world (nat * V) vf) : ending V :=
  match m w with
  | Done a w' => Shows (f a) w'
  | Threw w' => Shows ElementThrew w'
  | Undef => Nonsense
  end.

(* m_type_idx: 255 is variant_no_index *)
Definition index_value (k : option nat) : nat := match k with Some k => k | None => 255 end.

(* the alternative with index k; an index that is none does not compile *)
Definition at_index (i k : nat) (use : nat -> bool -> world (nat * V) vf -> ending V) (w : world (nat * V) vf) : ending V :=
  match vars w i with
  | None => Nonsense
  | Some f => match nth_error (alts f) k with
              | None => Nonsense
              | Some t => use t (same_index (index f) (Some k)) w
              end
  end.

Definition index_of (i t : nat) (w : world (nat * V) vf) : option nat :=
  match vars w i with Some f => list_find (alts f) t | None => None end.

(* get<Idx_>, lines 670-737 *)
Definition get_at (i k : nat) (c : cat) : world (nat * V) vf -> ending V :=
  at_index i k (fun t here w => if here then plain_end Value (fetch i t (movable c)) w else Shows BadAccess w).

(* get_or<Idx_>, lines 783-817 *)
Definition get_or_at (i k : nat) (d : V) (c : cat) : world (nat * V) vf -> ending V :=
  at_index i k (fun t here w => if here then noexcept_end Value (fetch i t (movable c)) w
                                else noexcept_end Value (make d) w).

Definition do_access (a : access V) (w : world (nat * V) vf) : ending V :=
  match a with
  | TypeIndex i => observe (fun f => Index (index_value (index f))) (fields i) w        (* lines 642-649 *)
  | Type_ i => observe TypeIs (do f <- fields i; dispatch i (index f) (fun t => ret t)) w (* lines 632-640 *)
  | IsType i t => observe Answer (is_type i t) w                                         (* lines 651-659 *)
  | IsEmpty i => observe Answer (is_empty_ i) w                                          (* lines 661-668 *)
  | ToBool i => observe (fun b => Answer (negb b)) (is_empty_ i) w                       (* lines 604-611 *)
  | Equal i j =>                                    (* no operator == : both are converted to bool *)
      observe (fun b => Answer b)
        (do a <- is_empty_ i; do b <- is_empty_ j; ret (Bool.eqb (negb a) (negb b))) w
  | GetAt i k c => get_at i k c w
  | Get i t c => match index_of i t w with                                               (* lines 740-781 *)
                 | Some k => get_at i k c w
                 | None => Nonsense
                 end
  | GetOrAt i k d c => get_or_at i k d c w
  | GetOr i t d c =>      (* lines 819-838: in both overloads the inner call is on the lvalue *this;
                             get_or has no overload for a non-const lvalue but const & *)
      match index_of i t w with
      | Some k => get_or_at i k d ConstLvalue w
      | None => Nonsense
      end
  | GetOpt i t c =>                                                                      (* lines 841-872 *)
      match index_of i t w with
      | Some k => if match vars w i with Some f => same_index (index f) (Some k) | None => false end
                  then noexcept_end (fun v => Maybe (Some v)) (fetch i t (movable c)) w
                  else Shows (Maybe None) w
      | None => Nonsense
      end
  | GetUnsafe i t c => plain_end Value (fetch i t (movable c)) w                         (* lines 875-916 *)
  | Look i t => observe (fun x => Value (snd x)) (as_type i t) w
  end.

End Vacc.
