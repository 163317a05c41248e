(* Model of include/yato/array_nd.h as an object in memory, and of algorithms of
   the standard library run over the iterators of include/yato/iterator_nd.h.

   Addresses are as in NdModel: N modulo 2^64.  The memory is a function from the
   address of an element to its value.
   Simplifications:
   - copying an element never throws;
   - an array is its address and its shape; the elements are where the built-in
     array type of 82-92 (deduce_nd_type) places them, row after row;
   - const and mutable variants of a function are one function;
   - a release build: YATO_REQUIRES does nothing. *)
From Coq Require Import List Bool NArith ZArith.
From Verif Require Import NdModel.
Import ListNotations.
Local Open Scope N_scope.

Record arr := Arr { base : N; shape : list N }.

(* ---- where the accesses lead ---- *)

(* array_nd.h 158-165 and 373-379 sub_array::at, 738-754 array_nd_impl::at, 1078-1092
   for one dimension: the test comes first, then operator[].  None: out_of_range_error.
   A wrong number of indices does not compile; it is None here too. *)
Fixpoint array_at (sz ptr : N) (sh is : list N) : option N :=
  match sh, is with
  | [e], [i] => if i <? e then Some (add64 ptr (mul64 i sz)) else None
  | e :: r, i :: is' =>
      if i <? e then array_at sz (add64 ptr (mul64 (mul64 i (shape_total r)) sz)) r is' else None
  | _, _ => None
  end.

(* array_nd.h 192-196 total_stored of a row *)
Definition row_stored (sz : N) (sh : list N) : N := mul64 (shape_total sh) sz.
(* array_nd.h 228-232 and 634-637 begin, 131-134 create_proxy_(0), and iterator_nd.h 126-140
   operator+: a row of several dimensions is an iterator that was advanced; a row of
   one dimension has pointers for iterators (345-346, 448-458) *)
Definition row_begin (sz ptr : N) (r : list N) : N := add64 ptr (mul64 (mul64 0 (shape_total r)) sz).
Fixpoint array_iter (sz ptr : N) (sh is : list N) : N :=
  match sh, is with
  | _ :: r, [i] => add64 ptr (mul64 i sz)
  | _ :: r, i :: is' => array_iter sz (add64 (row_begin sz ptr r) (mul64 i (row_stored sz r))) r is'
  | _, _ => ptr
  end.

(* array_nd.h 58-68 plain_array_strides, 848-851 strides_range without the first *)
Fixpoint array_strides (sz : N) (sh : list N) : list N :=
  match sh with
  | [] | [_] => []
  | _ :: r => row_stored sz r :: array_strides sz r
  end.
(* array_nd.h 1266-1278 view and cview: pointer, dimensions, strides in bytes *)
Definition array_view (sz ptr : N) (sh : list N) : proxy :=
  byte_view sz ptr (hd 0 sh) (combine (tl sh) (array_strides sz sh)).

(* how an element is reached *)
Inductive path := Brackets | At | Iterators | View.
Definition locate (sz : N) (p : path) (a : arr) (is : list N) : option N :=
  match p with
  | Brackets => Some (array_nested sz (base a) (shape a) is)      (* 725-736 *)
  | At => array_at sz (base a) (shape a) is
  | Iterators => Some (array_iter sz (base a) (shape a) is)
  | View => Some (nested Strided sz (array_view sz (base a) (shape a)) is)
  end.
(* 687-707 plain_begin()[k] and plain_end(), 858-883 data()[k] *)
Definition plain_at (sz : N) (a : arr) (k : N) : N := add64 (base a) (mul64 k sz).
Definition plain_end (sz : N) (a : arr) : N := add64 (base a) (mul64 (shape_total (shape a)) sz).

(* ---- traversal: for (row : a) for (x : row) ... ---- *)

(* begin()/end() of 228-238 and 634-655 with the operators ++ and != of iterator_nd.h
   87-91, 195-198; rows of one dimension are pointers.  walk is the loop of NdModel.
   None: the fuel ran out. *)
Fixpoint array_visit (sz ptr : N) (sh : list N) : option (list N) :=
  match sh with
  | [] => None
  | [e] => walk (S (N.to_nat e)) sz ptr (add64 ptr (mul64 e sz))
  | e :: r => match walk (S (N.to_nat e)) (row_stored sz r) (row_begin sz ptr r)
                      (add64 ptr (mul64 (mul64 e (shape_total r)) sz)) with
              | Some rows => opt_concat (map (fun p => array_visit sz p r) rows)
              | None => None
              end
  end.
Definition array_plain_visit (sz : N) (a : arr) : option (list N) :=
  walk (S (N.to_nat (shape_total (shape a)))) sz (base a) (plain_end sz a).

(* ---- memory ---- *)

Definition mem (V : Type) := N -> V.
Definition put {V} (m : mem V) (x : N) (v : V) : mem V := fun y => if y =? x then v else m y.

(* 888-894 fill: std::fill over plain_begin, plain_end *)
Fixpoint fill_loop {V} (fuel : nat) (sz : N) (m : mem V) (it last : N) (v : V) : option (mem V) :=
  match fuel with
  | O => None
  | S f => if it =? last then Some m else fill_loop f sz (put m it v) (add64 it sz) last v
  end.
Definition fill {V} (sz : N) (a : arr) (v : V) (m : mem V) : option (mem V) :=
  fill_loop (S (N.to_nat (shape_total (shape a)))) sz m (base a) (plain_end sz a) v.

(* 608-619 swap *)
Definition iter_swap {V} (m : mem V) (x y : N) : mem V := let t := m x in put (put m x (m y)) y t.
Fixpoint swap_loop {V} (fuel : nat) (sz : N) (m : mem V) (it1 it2 end1 : N) : option (mem V) :=
  match fuel with
  | O => None
  | S f => if it1 =? end1 then Some m
           else swap_loop f sz (iter_swap m it1 it2) (add64 it1 sz) (add64 it2 sz) end1
  end.
Definition swap {V} (sz : N) (a b : arr) (m : mem V) : option (mem V) :=
  swap_loop (S (N.to_nat (shape_total (shape a)))) sz m (base a) (base b) (plain_end sz a).

(* the implicit copy assignment of the class, which copies m_array (603) element by
   element in the order of the subscripts *)
Fixpoint assign_loop {V} (n : nat) (sz : N) (m : mem V) (d s : N) : mem V :=
  match n with
  | O => m
  | S n' => assign_loop n' sz (put m d (m s)) (add64 d sz) (add64 s sz)
  end.
Definition assign {V} (sz : N) (a b : arr) (m : mem V) : mem V :=
  assign_loop (N.to_nat (shape_total (shape a))) sz m (base a) (base b).

(* ---- programs over several arrays ---- *)

Inductive src (V : Type) := Value (v : V) | Elem (p : path) (a : nat) (is : list N).
Inductive op (V : Type) :=
| Store (p : path) (a : nat) (is : list N) (s : src V)     (* a[i]... = s and the like *)
| StorePlain (a : nat) (k : N) (s : src V)                 (* a.data()[k] = s *)
| Fill (a : nat) (v : V)
| Swap (a b : nat)
| Assign (a b : nat).
Arguments Value {V}. Arguments Elem {V}.
Arguments Store {V}. Arguments StorePlain {V}. Arguments Fill {V}. Arguments Swap {V}. Arguments Assign {V}.

Inductive result (V : Type) := Done (m : mem V) | Thrown | Stuck.
Arguments Done {V}. Arguments Thrown {V}. Arguments Stuck {V}.

Definition the (arrs : list arr) (a : nat) : arr := nth a arrs (Arr 0 []).
Definition fetch {V} (sz : N) (arrs : list arr) (m : mem V) (s : src V) : option V :=
  match s with
  | Value v => Some v
  | Elem p a is => option_map m (locate sz p (the arrs a) is)
  end.
Definition lift {V} (o : option (mem V)) : result V := match o with Some m => Done m | None => Stuck end.
Definition exec {V} (sz : N) (arrs : list arr) (o : op V) (m : mem V) : result V :=
  match o with
  | Store p a is s =>
      match fetch sz arrs m s, locate sz p (the arrs a) is with
      | Some v, Some x => Done (put m x v)
      | _, _ => Thrown
      end
  | StorePlain a k s =>
      match fetch sz arrs m s with
      | Some v => Done (put m (plain_at sz (the arrs a) k) v)
      | None => Thrown
      end
  | Fill a v => lift (fill sz (the arrs a) v m)
  | Swap a b => lift (swap sz (the arrs a) (the arrs b) m)
  | Assign a b => Done (assign sz (the arrs a) (the arrs b) m)
  end.
(* which calls threw, and the memory; an exception is caught by the caller *)
Fixpoint run {V} (sz : N) (arrs : list arr) (os : list (op V)) (m : mem V) : option (list bool * mem V) :=
  match os with
  | [] => Some ([], m)
  | o :: r => match exec sz arrs o m with
              | Done m' => option_map (fun x => (false :: fst x, snd x)) (run sz arrs r m')
              | Thrown => option_map (fun x => (true :: fst x, snd x)) (run sz arrs r m)
              | Stuck => None
              end
  end.

(* ---- standard algorithms over iterators ---- *)

(* What an algorithm does with iterators of type I, in a memory of type M: the tests
   and increments, and the statements `*d = *s` and `swap of *a and *b`.  The iterators are
   the objects of the algorithm: both statements may change them. *)
Record iter_ops (M I : Type) := IterOps {
  same : I -> I -> bool;
  less : I -> I -> bool;
  inc : I -> I;
  dec : I -> I;
  assign_deref : M -> I -> I -> M * I * I;      (* *d = *s : d and s afterwards *)
  swap_deref : M -> I -> I -> M * I * I         (* iter_swap a b : a and b afterwards *)
}.
Arguments IterOps {M I}. Arguments same {M I}. Arguments less {M I}. Arguments inc {M I}. Arguments dec {M I}.
Arguments assign_deref {M I}. Arguments swap_deref {M I}.

(* std::copy *)
Fixpoint std_copy {M I} (x : iter_ops M I) (fuel : nat) (m : M) (first last d : I) : option (M * I) :=
  match fuel with
  | O => None
  | S f => if same x first last then Some (m, d)
           else let '(m', d', first') := assign_deref x m d first in
                std_copy x f m' (inc x first') last (inc x d')
  end.
(* std::swap_ranges *)
Fixpoint std_swap_ranges {M I} (x : iter_ops M I) (fuel : nat) (m : M) (first last d : I) : option (M * I) :=
  match fuel with
  | O => None
  | S f => if same x first last then Some (m, d)
           else let '(m', first', d') := swap_deref x m first d in
                std_swap_ranges x f m' (inc x first') last (inc x d')
  end.
(* std::reverse for random access iterators *)
Fixpoint std_reverse_loop {M I} (x : iter_ops M I) (fuel : nat) (m : M) (first last : I) : option M :=
  match fuel with
  | O => None
  | S f => if less x first last
           then let '(m', first', last') := swap_deref x m first last in
                std_reverse_loop x f m' (inc x first') (dec x last')
           else Some m
  end.
Definition std_reverse {M I} (x : iter_ops M I) (fuel : nat) (m : M) (first last : I) : option M :=
  if same x first last then Some m else std_reverse_loop x fuel m first (dec x last).

(* plain iterators are pointers to elements *)
Definition pointer_ops (V : Type) (sz : N) : iter_ops (mem V) N := {|
  same := N.eqb;
  less := N.ltb;
  inc := fun p => add64 p sz;
  dec := fun p => add64 p (to_u64 (- to_i64 sz));
  assign_deref := fun m d s => (put m d (m s), d, s);
  swap_deref := fun m a b => (iter_swap m a b, a, b)
|}.

(* iterator_nd over rows of several dimensions (or of one dimension, in an N-D
   container): it inherits the row (27-28), its operator* (77-81) returns the row it
   is, and the assignment of rows copies the pointer and the pointer to the
   descriptors: array_nd.h 146-147 for sub_array, array_proxy.h 138-152 for proxy_nd.
   A sub_array has no descriptors; it is the proxy with those of its shape here.
   iter_swap swaps the rows by std::swap: three such assignments. *)
Definition row_ops (V : Type) (k : kind) (sz : N) : iter_ops (mem V) proxy := {|
  same := it_eq;
  less := it_lt;
  inc := it_next k sz;
  dec := it_prev k sz;
  assign_deref := fun m d s => (m, s, s);
  swap_deref := fun m a b => (m, b, a)
|}.
