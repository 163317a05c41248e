(* Model of multi-dimensional addressing: the dimension descriptors of
   include/yato/container_base.h (37-90), the views of include/yato/array_view.h,
   the proxies of include/yato/array_proxy.h, the iterators of
   include/yato/iterator_nd.h, the shapes of include/yato/array_nd.h, the
   addressing part of include/yato/vector_nd.h and the samplers of
   include/yato/container_nd.h (885-1183).

   size_t is N reduced modulo 2^64 after each product or sum, and so is an
   address: advance_bytes (container_base.h 94-98) adds to a byte pointer.
   Simplifications:
   - memory itself is absent: an access is the address it reaches;
   - an address space of 2^64 bytes without segments, so forming a pointer outside
     an object is an address and not undefined behaviour;
   - a release build: YATO_REQUIRES does nothing;
   - proxies refer to the descriptors of their container through a pointer; here
     they carry the list of those descriptors;
   - const and mutable variants are the same function. *)
From Coq Require Import List Bool NArith ZArith.
Import ListNotations.
Local Open Scope N_scope.

Definition w64 (x : N) : N := x mod 2 ^ 64.
Definition mul64 (a b : N) : N := w64 (a * b).
Definition add64 (a b : N) : N := w64 (a + b).

(* container_base.h 45-63 and 73-90: dimension_descriptor is the tuple (size, total),
   its offset is the total in elements; dimension_descriptor_strided is the tuple
   (size, total, offset) with the offset in bytes *)
Inductive kind := Plain | Strided.
Record desc := Desc { d_size : N; d_total : N; d_offset : N }.
Definition offset_to_bytes (k : kind) (sz off : N) : N :=
  match k with Plain => mul64 off sz | Strided => off end.
Definition bytes (k : kind) (sz : N) (d : desc) : N := offset_to_bytes k sz (d_offset d).

(* ---- descriptors of the containers ---- *)

(* vector_nd.h 786-792 init_sizes_ (and 778-784 init_subsizes_): from the last
   dimension up *)
Fixpoint plain_descs (ext : list N) : list desc :=
  match ext with
  | [] => []
  | e :: r => match plain_descs r with
              | [] => [Desc e e e]
              | d :: ds => let t := mul64 e (d_total d) in Desc e t t :: d :: ds
              end
  end.

(* array_view.h 60-72, dimensions N-1 .. 1, each with its stride in elements *)
Fixpoint elem_descs (sz : N) (es : list (N * N)) : list desc :=
  match es with
  | [] => []
  | (e, s) :: r => match elem_descs sz r with
                   | [] => [Desc e e (mul64 s sz)]
                   | d :: ds => Desc e (mul64 e (d_total d)) (mul64 s (d_offset d)) :: d :: ds
                   end
  end.
(* array_view.h 74-86, dimensions N-1 .. 1, each with its stride in bytes *)
Fixpoint byte_descs (es : list (N * N)) : list desc :=
  match es with
  | [] => []
  | (e, s) :: r => match byte_descs r with
                   | [] => [Desc e e s]
                   | d :: ds => Desc e (mul64 e (d_total d)) s :: d :: ds
                   end
  end.
(* dimension 0 of both constructors; without further dimensions it is the base
   class for one dimension (206-330), which has a pointer and a size *)
Definition top_desc (sz e : N) (ds : list desc) : list desc :=
  match ds with
  | [] => [Desc e e (mul64 e sz)]
  | d :: _ => Desc e (mul64 e (d_total d)) (mul64 e (d_offset d)) :: ds
  end.

Record proxy := Proxy { p_ptr : N; p_descs : list desc }.

Definition elem_view (sz ptr e : N) (es : list (N * N)) : proxy :=
  Proxy ptr (top_desc sz e (elem_descs sz es)).
Definition byte_view (sz ptr e : N) (es : list (N * N)) : proxy :=
  Proxy ptr (top_desc sz e (byte_descs es)).
(* array_view.h: array_view_nd(ptr, extents), element strides extents.sub_dims() *)
Definition dense_view (sz ptr e : N) (ext : list N) : proxy :=
  elem_view sz ptr e (map (fun x => (x, x)) ext).
(* array_view.h 88-103: a view of a proxy; 246-249 for one dimension, which keeps the
   pointer and the size alone *)
Definition view_of_proxy (k : kind) (sz : N) (p : proxy) : proxy :=
  Proxy (p_ptr p)
    match p_descs p with
    | [d] => top_desc sz (d_size d) []
    | ds => map (fun d => Desc (d_size d) (d_total d) (bytes k sz d)) ds
    end.
(* vector_nd.h: the vector as a proxy of all its dimensions *)
Definition vector_proxy (ptr : N) (ext : list N) : proxy := Proxy ptr (plain_descs ext).

(* ---- access ---- *)

(* array_proxy.h 98-104 create_sub_view_, array_view.h 181-186 get_sub_view_;
   vector_nd.h 758-761 create_proxy_ adds the same number of elements to a typed
   pointer *)
Definition sub_view (k : kind) (sz : N) (p : proxy) (idx : N) : proxy :=
  match p_descs p with
  | _ :: d :: ds => Proxy (add64 (p_ptr p) (mul64 idx (bytes k sz d))) (d :: ds)
  | _ => p
  end.
(* array_proxy.h 526-531, the proxy of one dimension *)
Definition elem (sz : N) (p : proxy) (idx : N) : N := add64 (p_ptr p) (mul64 idx sz).

(* p[i0][i1]...[in] *)
Fixpoint nested (k : kind) (sz : N) (p : proxy) (is : list N) : N :=
  match is with
  | [] => p_ptr p
  | [i] => elem sz p i
  | i :: r => nested k sz (sub_view k sz p i) r
  end.

(* array_nd.h 34-56 plain_array_shape; 125-135 sub_array::create_proxy_, 1-D
   operator[] *)
Fixpoint shape_total (shape : list N) : N :=
  match shape with
  | [] => 1
  | [e] => e
  | e :: r => mul64 e (shape_total r)
  end.
Fixpoint array_nested (sz ptr : N) (shape is : list N) : N :=
  match shape, is with
  | _ :: r, [i] => add64 ptr (mul64 i sz)
  | _ :: r, i :: is' => array_nested sz (add64 ptr (mul64 (mul64 i (shape_total r)) sz)) r is'
  | _, _ => ptr
  end.

(* ---- properties of a proxy ---- *)

Definition top (p : proxy) : desc := hd (Desc 0 0 0) (p_descs p).
Definition size (p : proxy) (dim : nat) : N := d_size (nth dim (p_descs p) (Desc 0 0 0)).    (* array_proxy.h 231-236 *)
Definition stride (k : kind) (sz : N) (p : proxy) (dim : nat) : N :=                          (* array_proxy.h 250-255 *)
  bytes k sz (nth (S dim) (p_descs p) (Desc 0 0 0)).
Definition total_size (p : proxy) : N := d_total (top p).                                     (* array_proxy.h 260-264 *)
Definition total_stored (k : kind) (sz : N) (p : proxy) : N := bytes k sz (top p).            (* array_proxy.h 269-273 *)
(* array_view.h 199-202 *)
Definition view_continuous (sz : N) (p : proxy) : bool :=
  mul64 (total_size p) sz =? d_offset (top p).
(* array_proxy.h 278-284, and 626-630 for one dimension *)
Definition proxy_continuous (k : kind) (sz : N) (p : proxy) : bool :=
  match p_descs p with
  | _ :: d :: _ => bytes k sz d =? mul64 (d_total d) sz
  | _ => true
  end.

(* ---- iterators over the top dimension ---- *)

Definition it_begin (k : kind) (sz : N) (p : proxy) : proxy := sub_view k sz p 0.
Definition it_end (k : kind) (sz : N) (p : proxy) : proxy := sub_view k sz p (d_size (top p)).
(* iterator_nd.h 86-91, 106-111 *)
Definition it_next (k : kind) (sz : N) (p : proxy) : proxy :=
  Proxy (add64 (p_ptr p) (total_stored k sz p)) (p_descs p).
(* conversions between size_t and ptrdiff_t *)
Definition to_u64 (z : Z) : N := Z.to_N (z mod 2 ^ 64).
Definition to_i64 (n : N) : Z :=
  if n <? 2 ^ 63 then Z.of_N n else (Z.of_N n - 2 ^ 64)%Z.
Definition it_prev (k : kind) (sz : N) (p : proxy) : proxy :=
  Proxy (add64 (p_ptr p) (to_u64 (- to_i64 (total_stored k sz p)))) (p_descs p).
(* iterator_nd.h 126-130: ptrdiff_t times size_t is a product of size_t *)
Definition it_add (k : kind) (sz : N) (p : proxy) (n : Z) : proxy :=
  Proxy (add64 (p_ptr p) (mul64 (to_u64 n) (total_stored k sz p))) (p_descs p).
(* iterator_nd.h 154-158: a product of ptrdiff_t.  Its overflow, undefined in C++,
   wraps here *)
Definition it_sub (k : kind) (sz : N) (p : proxy) (n : Z) : proxy :=
  Proxy (add64 (p_ptr p) (to_u64 (- n * to_i64 (total_stored k sz p)))) (p_descs p).
(* iterator_nd.h 174-180: the difference in bytes is a ptrdiff_t, the divisor a
   size_t, so the quotient is of type size_t; it is then converted to ptrdiff_t.
   None: division by zero *)
Definition it_diff (k : kind) (sz : N) (one another : proxy) : option Z :=
  let d := total_stored k sz one in
  if d =? 0 then None
  else Some (to_i64 (w64 (p_ptr one + (2 ^ 64 - p_ptr another)) / d)).
(* iterator_nd.h 185-234: comparisons of the raw pointers *)
Definition it_eq (a b : proxy) : bool := p_ptr a =? p_ptr b.
Definition it_lt (a b : proxy) : bool := p_ptr a <? p_ptr b.

(* the loop for (it = b; it != e; it += step) over addresses; None: more than fuel
   rounds *)
Fixpoint walk (fuel : nat) (step b e : N) : option (list N) :=
  match fuel with
  | O => None
  | S f => if b =? e then Some []
           else match walk f step (add64 b step) e with
                | Some l => Some (b :: l)
                | None => None
                end
  end.
Fixpoint opt_concat {A} (l : list (option (list A))) : option (list A) :=
  match l with
  | [] => Some []
  | None :: _ => None
  | Some x :: r => match opt_concat r with Some y => Some (x ++ y) | None => None end
  end.

(* the nested loops over all dimensions through begin()/end(): the addresses in the
   order of the visit.  it_next of a sub-view adds its total_stored, which are
   the bytes of the next descriptor *)
Fixpoint traverse (k : kind) (sz : N) (fuel : nat) (ptr : N) (ds : list desc) : option (list N) :=
  match ds with
  | [] => Some []
  | d :: r =>
      match r with
      | [] => walk fuel sz ptr (add64 ptr (mul64 (d_size d) sz))
      | d' :: _ =>
          match walk fuel (bytes k sz d') ptr (add64 ptr (mul64 (d_size d) (bytes k sz d'))) with
          | Some ps => opt_concat (map (fun q => traverse k sz fuel q r) ps)
          | None => None
          end
      end
  end.
(* plain_begin .. plain_end (array_view.h 602-624, array_proxy.h 321-352): a typed
   pointer and the same plus total_size *)
Definition plain_walk (sz : N) (fuel : nat) (p : proxy) : option (list N) :=
  walk fuel sz (p_ptr p) (add64 (p_ptr p) (mul64 (total_size p) sz)).

(* array_view.h 460-467 reshape *)
Definition reshape (sz : N) (p : proxy) (e : N) (ext : list N) : proxy :=
  dense_view sz (p_ptr p) e ext.

(* ---- samplers, container_nd.h ---- *)

(* index_type, check_index<dim>, transform_index<dim> with the defaults of 1048-1075
   where a sampler has no such method; whether it has boundary_value *)
Record sampler := Sampler {
  s_index : Z -> Z;                         (* conversion of an argument to index_type *)
  s_check : nat -> Z -> N -> bool;
  s_transform : nat -> Z -> N -> N;
  s_boundary : bool
}.
Definition to_i32 (z : Z) : Z := ((z + 2 ^ 31) mod 2 ^ 32 - 2 ^ 31)%Z.
Definition as_size (z : Z) : Z := (z mod 2 ^ 64)%Z.
Definition plain_transform (_ : nat) (i : Z) (_ : N) : N := to_u64 i.      (* 1070-1075 *)
(* 1110-1113: index_type size_t, the default check idx < size *)
Definition sampler_default := Sampler as_size (fun _ i n => (i <? Z.of_N n)%Z) plain_transform false.
(* 1118-1128 *)
Definition sampler_no_check := Sampler as_size (fun _ _ _ => true) plain_transform false.
(* 1133-1156 *)
Definition sampler_zero :=
  Sampler to_i32 (fun _ i n => (0 <=? i)%Z && (to_u64 i <? n)) plain_transform true.
(* 1161-1180 *)
Definition sampler_clamp :=
  Sampler to_i32 (fun _ _ _ => true)
    (fun _ i n => N.min (to_u64 (Z.max 0 i)) (w64 (n + (2 ^ 64 - 1)))) false.

Inductive fetched := At (addr : N) | Boundary | OutOfRange.

(* 977-994 check_bounds_impl_ from dimension dim *)
Fixpoint check_bounds (s : sampler) (p : proxy) (dim : nat) (is : list Z) : bool :=
  match is with
  | [] => true
  | [i] => s_check s dim (s_index s i) (size p dim)
  | i :: r => s_check s dim (s_index s i) (size p dim) && check_bounds s p (S dim) r
  end.
(* 1024-1046 fetch_value_continious_impl_: Horner's scheme over the sizes, then
   data()[offset] *)
Fixpoint fetch_continuous (s : sampler) (sz : N) (p : proxy) (dim : nat) (off : N) (is : list Z) : N :=
  match is with
  | [] => p_ptr p
  | [i] => add64 (p_ptr p) (mul64 (add64 off (s_transform s dim (s_index s i) (size p dim))) sz)
  | i :: r =>
      let off' := mul64 (add64 off (s_transform s dim (s_index s i) (size p dim))) (size p (S dim)) in
      fetch_continuous s sz p (S dim) off' r
  end.
(* 996-1014 fetch_value_impl_ for a strided (generic) container.  The category handed
   on with a sub-view (1013) is that of the container, so the last index comes to
   996-1004 with its own dimension and is a subscript of the sub-view *)
Fixpoint fetch_strided (s : sampler) (sz : N) (p : proxy) (dim : nat) (is : list Z) : N :=
  match is with
  | [] => p_ptr p
  | [i] => elem sz p (s_transform s dim (s_index s i) (size p 0))
  | i :: r =>
      fetch_strided s sz (sub_view Strided sz p (s_transform s dim (s_index s i) (size p 0))) (S dim) r
  end.
(* container_base.h 101-123: the category of a container; of one dimension (107-111)
   it is continuous *)
Definition fetch (k : kind) (s : sampler) (sz : N) (p : proxy) (is : list Z) : N :=
  match k, is with
  | Plain, _ | Strided, [_] => fetch_continuous s sz p 0 0 is
  | Strided, _ => fetch_strided s sz p 0 is
  end.
(* 950-963 load_impl_ (the value stored at the address is what is returned), 965-975
   at_impl_ *)
Definition load (k : kind) (s : sampler) (sz : N) (p : proxy) (is : list Z) : fetched :=
  if check_bounds s p 0 is then At (fetch k s sz p is)
  else if s_boundary s then Boundary else OutOfRange.
Definition at_ (k : kind) (s : sampler) (sz : N) (p : proxy) (is : list Z) : fetched :=
  if check_bounds s p 0 is then At (fetch k s sz p is) else OutOfRange.
