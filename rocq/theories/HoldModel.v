(* Small wrappers: any_ptr (/repo/include/yato/any_ptr.h:28-79), not_null
   (/repo/include/yato/not_null.h:19-141), instance_of
   (/repo/include/yato/instance_of.h:17-83) and compressed_pair
   (/repo/include/yato/compressed_pair.h:18-461).

   A pointer is a number, 0 the null pointer. *)
From Coq Require Import List Bool Arith.
Import ListNotations.

(* A table of variables, used by all four. *)
Definition vars (A : Type) := nat -> option A.
Definition no_vars {A : Type} : vars A := fun _ => None.
Definition set {A : Type} (s : vars A) (i : nat) (a : A) : vars A := fun k => if k =? i then Some a else s k.

(* --- any_ptr --- *)

(* std::type_info of Ty* (a class or scalar by number, with its const and
   volatile) or of nullptr_t.  typeid ignores const and volatile of the pointer
   itself, not of what it points to. *)
Inductive ptype :=
| PtrTo (is_const is_volatile : bool) (base : nat)
| NullT.

(* operator== of std::type_index *)
Definition ptype_eqb (t u : ptype) : bool :=
  match t, u with
  | PtrTo c v b, PtrTo c' v' b' => Bool.eqb c c' && Bool.eqb v v' && (b =? b')
  | NullT, NullT => true
  | _, _ => false
  end.

Record any_ptr := mk_any { m_pointer : nat; m_type : ptype }.

(* any_ptr(Ty * ), lines 35-38, and any_ptr(nullptr_t), lines 40-42 *)
Definition any_of (t : ptype) (p : nat) : any_ptr := mk_any p t.
Definition any_null : any_ptr := mk_any 0 NullT.

(* operator bool, lines 55-58 *)
Definition any_bool (a : any_ptr) : bool := negb (m_pointer a =? 0).

(* get_or, lines 60-69; the casts do not change the address *)
Definition any_get_or (t : ptype) (d : nat) (a : any_ptr) : nat :=
  if ptype_eqb t (m_type a) then m_pointer a else d.

(* get, lines 71-75 *)
Definition any_get (t : ptype) (a : any_ptr) : nat := any_get_or t 0 a.

(* Programs: variables made from or assigned a pointer of some type, the null
   pointer, or another variable. *)
Inductive aop :=
| AGive (i : nat) (c v : bool) (b p : nat)
| ANull (i : nat)
| ACopy (i j : nat).

Definition a_step (o : aop) (s : vars any_ptr) : vars any_ptr :=
  match o with
  | AGive i c v b p => set s i (any_of (PtrTo c v b) p)
  | ANull i => set s i any_null
  | ACopy i j => match s j with Some a => set s i a | None => s end
  end.

Definition a_run (l : list aop) (s : vars any_ptr) : vars any_ptr := fold_left (fun s o => a_step o s) l s.

(* --- not_null of raw pointers, lines 26-76 --- *)

(* not_null(T ptr), lines 35-40, in a debug build and in a release build, where
   YATO_REQUIRES is empty; None: assert stops the program *)
Definition nn_make (debug : bool) (p : nat) : option nat :=
  if debug && (p =? 0) then None else Some p.

Inductive nop :=
| NMake (i p : nat)      (* not_null<T*> i(p); or i = p, through a temporary *)
| NCopy (i j : nat).     (* not_null<T*> i(j); or i = j; *)

(* lines 44-45: copying and assigning are defaulted *)
Definition n_step (debug : bool) (o : nop) (s : vars nat) : option (vars nat) :=
  match o with
  | NMake i p => match nn_make debug p with Some q => Some (set s i q) | None => None end
  | NCopy i j => match s j with Some q => Some (set s i q) | None => Some s end
  end.

Fixpoint n_run (debug : bool) (l : list nop) (s : vars nat) : option (vars nat) :=
  match l with
  | [] => Some s
  | o :: l' => match n_step debug o s with Some s' => n_run debug l' s' | None => None end
  end.

(* --- not_null of smart pointers, lines 80-139 --- *)

(* m_smart_pointer is a reference: the wrapper is the number of the smart
   pointer variable, and what it gives depends on that variable *)
Record smart := mk_smart { sp : vars nat; nn : vars nat }.

Inductive sop :=
| SSet (i p : nat)       (* the smart pointer i is made, assigned or reset *)
| SGone (i : nat)        (* the smart pointer i is destroyed *)
| SWrap (k i : nat).     (* not_null<...> k(i); *)

(* SWrap: lines 88-92 *)
Definition s_step (debug : bool) (o : sop) (s : smart) : option smart :=
  match o with
  | SSet i p => Some (mk_smart (set (sp s) i p) (nn s))
  | SGone i => Some (mk_smart (fun k => if k =? i then None else sp s k) (nn s))
  | SWrap k i =>
      match sp s i with
      | Some p => match nn_make debug p with Some _ => Some (mk_smart (sp s) (set (nn s) k i)) | None => None end
      | None => Some s
      end
  end.

Fixpoint s_run (debug : bool) (l : list sop) (s : smart) : option smart :=
  match l with
  | [] => Some s
  | o :: l' => match s_step debug o s with Some s' => s_run debug l' s' | None => None end
  end.

(* get, lines 107-116; None: the referenced smart pointer is gone (undefined) *)
Definition s_get (s : smart) (k : nat) : option nat :=
  match nn s k with
  | Some i => sp s i
  | None => None
  end.

(* --- instance_of --- *)

Section Instance.
(* dynamic_cast<T*>(p) for the objects of the program; of null it gives null *)
Variable cast : nat -> nat.

(* both constructors, lines 29-51; None: throws *)
Definition io_make (p : nat) : option nat := if cast p =? 0 then None else Some (cast p).

(* How a copy names its source. *)
Inductive source := ConstLvalue | Lvalue | Rvalue.

(* instance_of b(a).  For a source that is not const the constructor template
   of lines 41-51 takes it with _CheckType = instance_of<T>, a better match than
   the implicit copy constructor; its dynamic_cast of a class that is not
   polymorphic is ill-formed.  For a const source both match and the copy
   constructor, not being a template, wins; an rvalue is taken by the implicit
   move constructor. *)
Definition copy_compiles (k : source) : bool :=
  match k with
  | Lvalue => false
  | ConstLvalue | Rvalue => true
  end.

Inductive iop :=
| IMake (i p : nat)                  (* instance_of<T> i(p), constructor throws: no variable *)
| ICopy (i j : nat) (k : source)
| IAssign (i j : nat).

(* A program with an ill-formed copy does not exist: the step gives None. *)
Definition i_step (o : iop) (s : vars nat) : option (vars nat) :=
  match o with
  | IMake i p => match io_make p with Some q => Some (set s i q) | None => Some s end
  | ICopy i j k => if copy_compiles k then match s j with Some q => Some (set s i q) | None => Some s end else None
  | IAssign i j => match s j with Some q => Some (set s i q) | None => Some s end
  end.

Fixpoint i_run (l : list iop) (s : vars nat) : option (vars nat) :=
  match l with
  | [] => Some s
  | o :: l' => match i_step o s with Some s' => i_run l' s' | None => None end
  end.
End Instance.

(* --- compressed_pair --- *)

(* What matters of a member type: its name; whether it is an empty class and
   final; whether its default initialisation leaves it indeterminate (trivial)
   and which value its value initialisation gives. *)
Record mtype := mk_type { name : nat; is_empty : bool; is_final : bool; trivial : bool; initial : nat }.

(* Line 222: the compressed version is chosen *)
Definition compressed (t : mtype) : bool := is_empty t && negb (is_final t).

(* None: an indeterminate value.  An empty class has one value, 0. *)
Definition default_init (t : mtype) : option nat :=
  if is_empty t then Some 0 else if trivial t then None else Some (initial t).
Definition value_init (t : mtype) : nat := if is_empty t then 0 else initial t.
Definition from (t : mtype) (v : nat) : nat := if is_empty t then 0 else v.

(* The base class FirstTy_ in the compressed version or m_first, and m_second *)
Record pair := mk_pair { p_first : option nat; p_second : option nat }.

Inductive ctor :=
| CDefault                            (* compressed_pair p; *)
| CZero (second : option nat)         (* zero_arg_then_variadic_t, with no or one argument for second *)
| COne (first : nat) (second : option nat).

Definition init_second (t2 : mtype) (a : option nat) : nat :=
  match a with
  | Some v => from t2 v
  | None => value_init t2
  end.

(* General version: lines 72-88; compressed version: lines 237-256, whose
   m_second has the initialiser {} *)
Definition build (t1 t2 : mtype) (c : ctor) : pair :=
  if compressed t1 then
    match c with
    | CDefault => mk_pair (Some 0) (Some (value_init t2))
    | CZero a => mk_pair (Some 0) (Some (init_second t2 a))
    | COne v a => mk_pair (Some (from t1 v)) (Some (init_second t2 a))
    end
  else
    match c with
    | CDefault => mk_pair (default_init t1) (default_init t2)
    | CZero a => mk_pair (Some (value_init t1)) (Some (init_second t2 a))
    | COne v a => mk_pair (Some (from t1 v)) (Some (init_second t2 a))
    end.

(* Ways to name a member: first() and second() (lines 104-162, 271-330),
   get<0> and get<1> of an lvalue or rvalue (lines 389-440), get_as<Ty_> and
   get<Ty_> (lines 164-202, 443-461). *)
Inductive access :=
| First | Second
| Index (rvalue : bool) (i : nat)
| ByType (t : nat).

(* Which member it is; None: does not compile.  get<0>(pair &&) returns an
   lvalue as an rvalue reference.  By type: lines 20-50. *)
Definition member (t1 t2 : mtype) (a : access) : option bool :=
  match a with
  | First => Some true
  | Second => Some false
  | Index true _ => None
  | Index false 0 => Some true
  | Index false 1 => Some false
  | Index false _ => None
  | ByType t =>
      if (t =? name t1) && negb (t =? name t2) then Some true
      else if (t =? name t2) && negb (t =? name t1) then Some false
      else None
  end.

Definition read_member (b : bool) (p : pair) : option nat := if b then p_first p else p_second p.
Definition write_member (t1 t2 : mtype) (b : bool) (v : nat) (p : pair) : pair :=
  if b then mk_pair (Some (from t1 v)) (p_second p) else mk_pair (p_first p) (Some (from t2 v)).

(* operator std::pair and std::tuple, lines 204-218 and 371-385; None: reads an
   indeterminate value *)
Definition to_tuple (p : pair) : option (nat * nat) :=
  match p_first p, p_second p with
  | Some a, Some b => Some (a, b)
  | _, _ => None
  end.

(* A program writes through accesses that compile. *)
Definition write (t1 t2 : mtype) (w : access * nat) (p : pair) : pair :=
  match member t1 t2 (fst w) with
  | Some b => write_member t1 t2 b (snd w) p
  | None => p
  end.

Definition writes (t1 t2 : mtype) (l : list (access * nat)) (p : pair) : pair := fold_left (fun p w => write t1 t2 w p) l p.
