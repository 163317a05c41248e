(* Samplers and containers written by the user, as include/yato/container_nd.h
   serves them: container_traits (116-333), its versions for arrays, std::array and
   std::vector (335-491), container_ops (497-802) and sampler_traits (860-1115).

   A container of the user is what the traits find out about its type, one record
   for every level (the container, its rows, the rows of the rows), its extents, its
   elements and, where data() exists, the memory behind data().  A sampler of the
   user is the subset of the four methods it has; the methods may change the
   sampler (loads and ats take it by reference, 1189-1213), so each takes and
   returns a state.

   Simplifications.
   - The methods of a container do not throw and do not change it.
   - What size(dim) of a container says about its rows is the same for all rows.
   - Sizes and positions are N; the arithmetic of size_t is written mod 2^64.
   - An index of the container is not narrower than size_t (index_type of
     container_traits 134-138).
   - A row is never convertible to an element.
   - Release build: narrow_cast (1077-1081) does not check. *)
From Coq Require Import ZArith NArith List Bool.
Import ListNotations.
Local Open Scope N_scope.

Definition size_mod : N := 2 ^ 64.

(* container_base.h 23-33 *)
Inductive category := Generic | Strided | Continuous.

(* what operator[] of a level gives: a reference to a row or element that the
   container keeps; a proxy, which only points to the elements; or a row by value,
   which owns its elements and dies with the expression *)
Inductive rows := Ref | Proxy | Owning.

(* container_traits: 221-309 find the methods by name, arguments and convertibility
   of the result; the members has_method_xxx of the container take precedence.
   For arrays 338-380, std::array 389-431, std::vector 440-482 they are fixed. *)
Record traits := Traits {
  t_category : category;
  t_size0 : bool;        (* size() *)
  t_size1 : bool;        (* size(dim) *)
  t_dimensions : bool;
  t_dimensions_range : bool;
  t_total : bool;        (* total_size() *)
  t_continuous : bool;
  t_subscript : bool;    (* operator[] of a non-const container *)
  t_const_subscript : bool;   (* operator[] const exists, whatever it returns *)
  t_data : bool;
  t_cdata : bool;
  t_stride : bool;
  t_strides : bool;
  t_array : bool;        (* a plain array: std::size, std::data work *)
  t_rows : rows
}.

(* 335-380: Ty[N] *)
Definition array_traits : traits :=
  Traits Continuous false false false false false false true true false false false false true Ref.
(* 389-431: std::array; 440-482: std::vector *)
Definition std_traits : traits :=
  Traits Continuous true false false false false false true true true false false false false Ref.

(* what the type says it is: by its member container_category, or else by the
   descriptor of its dimensions, 213-215 and container_base.h 101-123 *)
Inductive descriptor := NoDescriptor | Dense | WithStrides.
Definition deduce_category (declared : option category) (dims : nat) (d : descriptor) : category :=
  match declared with
  | Some c => c
  | None => match dims, d with
            | 1%nat, _ => Continuous
            | _, Dense => Continuous
            | _, WithStrides => Strided
            | _, NoDescriptor => Generic
            end
  end.

Section Model.
Context {V R S : Type}.

Record container := Container {
  levels : list traits;      (* as many as dimensions_number *)
  shape : list N;
  elems : list N -> V;       (* the element with these indices *)
  memory : N -> V            (* data()[k] *)
}.
Definition dims (c : container) : nat := length (levels c).
Definition top (c : container) : traits := hd array_traits (levels c).

(* ---- container_ops: None where no overload is left or its body is ill-formed ---- *)

(* 538-552 size(c) of a level *)
Definition ops_size (t : traits) (sh : list N) : option N :=
  if t_size0 t then Some (hd 0 sh)
  else if t_size1 t then Some (nth 0 sh 0)
  else if t_array t then Some (hd 0 sh)       (* std::size *)
  else None.
(* 554-564 size(c, dim) of a level with n dimensions.  The dimension is not looked
   at when there is one; size(dim) of a container is asked for any dim: None in
   the inner option is reading beyond its extents *)
Definition ops_size_dim (t : traits) (n : nat) (sh : list N) (d : nat) : option (option N) :=
  if t_size1 t then Some (nth_error sh d)
  else if Nat.eqb n 1 then match ops_size t sh with Some s => Some (Some s) | None => None end
  else None.
(* make_dims_from_size_ 67-88 *)
Definition dims_from_size (t : traits) (n : nat) (sh : list N) : option (list N) :=
  if Nat.eqb n 1 then if t_size0 t then Some [hd 0 sh] else None
  else if t_size1 t then Some (map (fun d => nth d sh 0) (seq 0 n)) else None.
(* 566-576 *)
Definition ops_dimensions (c : container) : option (list N) :=
  if t_dimensions (top c) then Some (shape c) else dims_from_size (top c) (dims c) (shape c).
(* 533: has_method_size1 of container_ops *)
Definition ops_has_size1 (c : container) : bool :=
  (Nat.ltb (dims c) 1 && t_size0 (top c)) || t_size1 (top c).
(* 578-588: numeric_range(dimensions_number).map(size) *)
Definition ops_dimensions_range (c : container) : option (list N) :=
  if t_dimensions_range (top c) then Some (shape c)
  else if ops_has_size1 c then Some (map (fun d => nth d (shape c) 0) (seq 0 (dims c)))
  else None.
(* dimensionality::total_size, container_base.h 152-158, 233-237 *)
Definition wrap_mul (a b : N) : N := (a * b) mod size_mod.
Fixpoint wrap_total (sh : list N) : N :=
  match sh with
  | [] => 0
  | [n] => n
  | n :: r => wrap_mul n (wrap_total r)
  end.
(* 590-600; a container that has total_size() tells the truth *)
Definition ops_total_size (c : container) : option N :=
  if t_total (top c) then Some (wrap_total (shape c))
  else match ops_dimensions c with Some sh => Some (wrap_total sh) | None => None end.
(* 602-612; dense: what continuous() of the container says *)
Definition ops_continuous (c : container) (dense : bool) : bool :=
  if t_continuous (top c) then dense else Nat.eqb (dims c) 1.
(* 614-636: may subscript be called on a (const) level *)
Definition ops_subscript_ok (t : traits) (const : bool) : bool :=
  if t_subscript t then (if const then t_const_subscript t else true)
  else true.                       (* *next(std::begin(c), i) *)
(* 691-725 data *)
Definition ops_data_ok (t : traits) : bool := t_data t || t_array t.
(* 727-752 cdata *)
Definition ops_cdata_ok (t : traits) : bool :=
  if t_cdata t then true else if t_data t then true else t_array t.
(* 534, 763-779: have strides() been found or can they be made from stride(dim) *)
Definition ops_has_strides (t : traits) : bool := t_stride t || t_strides t.

(* ---- samplers ---- *)

(* A method the sampler declares; exact: its result has exactly the type bool
   (check_index) or size_t (transform_index), 815-837 *)
Record sampler := Sampler {
  conv : Z -> Z;                  (* an argument as index_type *)
  check : option (bool * (nat -> Z -> N -> S -> bool * S));
  trans : option (bool * (nat -> Z -> N -> S -> N * S));
  value : option (V -> S -> R * S);
  bound : option (S -> R * S);
  plain : V -> R                  (* an element as return_type *)
}.
Definition to_size (z : Z) : N := Z.to_N (z mod 2 ^ 64).

Inductive out (A : Type) :=
| Got (a : A) (s : S)
| Thrown (s : S)       (* out_of_range_error *)
| Bad                  (* undefined behaviour *)
| NoCompile.
Arguments Got {A} a s. Arguments Thrown {A} s. Arguments Bad {A}. Arguments NoCompile {A}.

(* 1054-1067: the default index_type is size_t; a signed index is converted *)
Definition do_check (p : sampler) (d : nat) (i : Z) (sz : N) (s : S) : bool * S :=
  match check p with
  | Some (true, f) => f d i sz s
  | _ => (to_size i <? sz, s)
  end.
(* 1069-1081 *)
Definition do_trans (p : sampler) (d : nat) (i : Z) (sz : N) (s : S) : N * S :=
  match trans p with
  | Some (true, f) => f d i sz s
  | _ => (to_size i, s)
  end.

(* check_bounds_impl_ 983-1000, Dim_ = d; None: size() beyond the extents *)
Fixpoint check_bounds (p : sampler) (t : traits) (n : nat) (sh : list N) (d : nat) (idx : list Z) (s : S)
  : option (bool * S) :=
  match idx with
  | [] => Some (true, s)
  | i :: rest =>
      match ops_size_dim t n sh d with
      | Some (Some sz) =>
          let '(b, s1) := do_check p d (conv p i) sz s in
          match rest with
          | [] => Some (b, s1)
          | _ => if b then check_bounds p t n sh (Datatypes.S d) rest s1 else Some (false, s1)
          end
      | _ => None
      end
  end.

(* what has been reached: an element by its indices, a row (of at), or a place
   in the memory behind data(); the flag: is it inside a row that has died *)
Inductive place := Elem (is : list N) | Row (is : list N) | Mem (k : N).

(* fetch_value_impl_ for container_generic_tag, 1002-1022; pre: the indices already
   applied; dead: a row on the way was returned by value *)
Fixpoint fetch_generic (p : sampler) (ls : list traits) (sh : list N) (d : nat) (pre : list N)
    (dead : bool) (idx : list Z) (s : S) : option (place * bool * S) :=
  match ls, sh, idx with
  | t :: ls', sz0 :: sh', i :: rest =>
      match ops_size_dim t (length ls) sh 0 with
      | Some (Some sz) =>
          let '(e, s1) := do_trans p d (conv p i) sz s in
          if e <? sz0 then
            match rest with
            | [] => Some (match ls' with [] => Elem (pre ++ [e]) | _ => Row (pre ++ [e]) end, dead, s1)
            | _ => fetch_generic p ls' sh' (Datatypes.S d) (pre ++ [e])
                     (dead || match t_rows t with Owning => true | _ => false end) rest s1
            end
          else None
      | _ => None
      end
  | _, _, _ => None
  end.
(* fetch_value_continious_impl_ 1033-1052 *)
Fixpoint fetch_continuous (p : sampler) (t : traits) (n : nat) (sh : list N) (d : nat) (off : N)
    (idx : list Z) (s : S) : option (N * S) :=
  match idx with
  | [] => None
  | i :: rest =>
      match ops_size_dim t n sh d with
      | Some (Some sz) =>
          let '(e, s1) := do_trans p d (conv p i) sz s in
          match rest with
          | [] => Some ((off + e) mod size_mod, s1)
          | _ => match ops_size_dim t n sh (Datatypes.S d) with
                 | Some (Some sz') => fetch_continuous p t n sh (Datatypes.S d) (wrap_mul (off + e) sz') rest s1
                 | _ => None
                 end
          end
      | _ => None
      end
  end.
(* the overloads take the tag of the container, 1002-1031; container_strided_tag is
   a container_generic_tag *)
Definition fetch (p : sampler) (c : container) (idx : list Z) (s : S) : option (place * bool * S) :=
  match t_category (top c) with
  | Continuous =>
      match fetch_continuous p (top c) (dims c) (shape c) 0 0 idx s with
      | Some (k, s1) => Some (Mem k, false, s1)
      | None => None
      end
  | _ => fetch_generic p (levels c) (shape c) 0 [] false idx s
  end.

(* ---- which calls compile ---- *)
Definition size_dim_ok (t : traits) (n : nat) : bool :=
  t_size1 t || (Nat.eqb n 1 && (t_size0 t || t_array t)).
(* k indices are left; the rows of a const container are const if they are
   references *)
Fixpoint generic_ok (ls : list traits) (const : bool) (k : nat) : bool :=
  match k, ls with
  | O, _ => true
  | Datatypes.S k', t :: ls' =>
      size_dim_ok t (length ls) && ops_subscript_ok t const &&
      generic_ok ls' (match t_rows t with Ref => const | _ => false end) k'
  | _, _ => false
  end.
Definition at_ok (c : container) (const : bool) (k : nat) : bool :=
  negb (Nat.eqb k 0) && size_dim_ok (top c) (dims c) &&
  match t_category (top c) with
  | Continuous => ops_data_ok (top c)
  | _ => generic_ok (levels c) const k
  end.
(* load returns an element, so a row will not do *)
Definition load_ok (c : container) (k : nat) : bool :=
  at_ok c true k &&
  match t_category (top c) with Continuous => true | _ => Nat.eqb k (dims c) end.

(* reading what was reached; memory has as many cells as the container elements *)
Definition cells (sh : list N) : N := fold_right N.mul 1 sh.
Definition read (c : container) (q : place) (dead : bool) : option V :=
  if dead then None
  else match q with
       | Elem is => Some (elems c is)
       | Row _ => None
       | Mem k => if k <? cells (shape c) then Some (memory c k) else None
       end.

(* load_impl_ 957-970 *)
Definition load (p : sampler) (c : container) (idx : list Z) (s : S) : out R :=
  if load_ok c (length idx) then
    match check_bounds p (top c) (dims c) (shape c) 0 idx s with
    | None => Bad
    | Some (false, s1) => match bound p with
                          | Some f => let '(r, s2) := f s1 in Got r s2
                          | None => Thrown s1
                          end
    | Some (true, s1) =>
        match fetch p c idx s1 with
        | None => Bad
        | Some (q, dead, s2) =>
            match read c q dead with
            | None => Bad
            | Some v => match value p with
                        | Some f => let '(r, s3) := f v s2 in Got r s3
                        | None => Got (plain p v) s2
                        end
            end
        end
    end
  else NoCompile.
(* at_impl_ 972-981: the reference; a row that has died is not to be used *)
Definition at_ (p : sampler) (c : container) (const : bool) (idx : list Z) (s : S) : out place :=
  if at_ok c const (length idx) then
    match check_bounds p (top c) (dims c) (shape c) 0 idx s with
    | None => Bad
    | Some (false, s1) => Thrown s1
    | Some (true, s1) =>
        match fetch p c idx s1 with
        | None => Bad
        | Some (q, dead, s2) =>
            if dead then Bad
            else match q with
                 | Mem k => if k <? cells (shape c) then Got q s2 else Bad
                 | _ => Got q s2
                 end
        end
    end
  else NoCompile.
End Model.
Arguments Got {S A} a s. Arguments Thrown {S A} s. Arguments Bad {S A}. Arguments NoCompile {S A}.
Arguments container : clear implicits.
Arguments sampler : clear implicits.
