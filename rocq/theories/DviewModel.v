(* Views, proxies and samplers of many dimensions in a debug build: the functions of
   NdModel with their YATO_REQUIRES and YATO_ASSERT.  A failed one stops the program
   (assertion.h).  With [debug] off nothing is checked: a release build.
   Element types of one size, so YATO_ASSERT_TESTED of narrow_cast (types.h 50-57),
   which can only fail for an index that does not fit its type, is left out: the
   conversions are those of NdModel. *)
From Coq Require Import List NArith ZArith Bool.
From Verif Require Import NdModel.
Import ListNotations.
Local Open Scope N_scope.

(* what a call gives: a value, the end of the program in an assertion, an exception
   of type out_of_range_error, the boundary value of a sampler, more rounds of a loop than the fuel; a call
   with a wrong number of indices does not compile *)
Inductive out (A : Type) :=
| Go (x : A) | Stop | Thrown | Padding | Endless | NoCompile.
Arguments Go {A} x.  Arguments Stop {A}.  Arguments Thrown {A}.  Arguments Padding {A}.
Arguments Endless {A}.  Arguments NoCompile {A}.

Definition then_ {A B} (x : out A) (f : A -> out B) : out B :=
  match x with
  | Go a => f a | Stop => Stop | Thrown => Thrown | Padding => Padding | Endless => Endless
  | NoCompile => NoCompile
  end.
(* assertion.h: YATO_REQUIRES, YATO_ASSERT *)
Definition requires {A} (debug : bool) (c : bool) (k : out A) : out A :=
  if debug && negb c then Stop else k.
Definition finished (l : option (list N)) : out (list N) :=
  match l with Some l => Go l | None => Endless end.

(* ---- construction ---- *)

(* array_view.h 57-72: 63 and 66 assert for each dimension j = 1 .. N-1 that the
   stride of the dimension above it is not less than its extent.  All asserted values
   are arguments, so the order of the assertions is of no effect. *)
Definition new_elem (debug : bool) (sz ptr e : N) (es : list (N * N)) : out proxy :=
  requires debug (forallb (fun x => fst x <=? snd x) es) (Go (elem_view sz ptr e es)).
(* array_view.h 74-86: 77 and 80, the same comparison with strides in bytes *)
Definition new_byte (debug : bool) (sz ptr e : N) (es : list (N * N)) : out proxy :=
  requires debug (forallb (fun x => fst x <=? snd x) es) (Go (byte_view sz ptr e es)).

(* ---- objects ---- *)

(* a variable of type array_view_nd, or of type array_proxy_nd with the descriptors
   of a view (Strided) or of a vector (Plain) *)
Inductive object := View (p : proxy) | Row (k : kind) (p : proxy).
Definition proxy_of (o : object) : proxy := match o with View p => p | Row _ p => p end.
Definition kind_of (o : object) : kind := match o with View _ => Strided | Row k _ => k end.
Definition dims (o : object) : nat := length (p_descs (proxy_of o)).

(* array_view.h 477-481, array_proxy.h 158-162: operator[] of two dimensions or
   more, idx < size(0) *)
Definition subscript (debug : bool) (sz : N) (o : object) (i : N) : out object :=
  match p_descs (proxy_of o) with
  | _ :: _ :: _ => requires debug (i <? size (proxy_of o) 0) (Go (Row (kind_of o) (sub_view (kind_of o) sz (proxy_of o) i)))
  | _ => NoCompile
  end.
(* the same of one dimension; array_proxy.h 527-531 *)
Definition element (debug : bool) (sz : N) (o : object) (i : N) : out N :=
  match p_descs (proxy_of o) with
  | [_] => requires debug (i <? size (proxy_of o) 0) (Go (elem sz (proxy_of o) i))
  | _ => NoCompile
  end.
(* o[i0][i1]...[in] *)
Fixpoint brackets (debug : bool) (sz : N) (o : object) (is : list N) : out N :=
  match is with
  | [] => NoCompile
  | [i] => element debug sz o i
  | i :: r => then_ (subscript debug sz o i) (fun o' => brackets debug sz o' r)
  end.

(* array_view.h 88-103, 246-249: no assertion on the proxies there are; a view is
   copied *)
Definition as_view (sz : N) (o : object) : object :=
  match o with View p => View p | Row k p => View (view_of_proxy k sz p) end.

(* array_view.h 199-202; array_proxy.h 278-284, 626-630 *)
Definition continuous (sz : N) (o : object) : bool :=
  match o with View p => view_continuous sz p | Row k p => proxy_continuous k sz p end.

(* array_view.h 460-467: continuous() and extents.total_size() == total_size(); the
   constructor of 57-72 then compares the extents with themselves *)
Definition reshaped (debug : bool) (sz : N) (o : object) (e : N) (ext : list N) : out object :=
  match o with
  | View p =>
      requires debug (continuous sz o)
        (requires debug (shape_total (e :: ext) =? total_size p)
           (then_ (new_elem debug sz (p_ptr p) e (map (fun x => (x, x)) ext)) (fun q => Go (View q))))
  | Row _ _ => NoCompile
  end.

(* array_view.h 602-644, array_proxy.h 321-352, 667-698: plain_begin and plain_end
   require continuous(), then the loop *)
Definition plain_loop (debug : bool) (sz : N) (fuel : nat) (o : object) : out (list N) :=
  requires debug (continuous sz o) (finished (plain_walk sz fuel (proxy_of o))).
(* the nested loops over begin() .. end(), which have no assertion *)
Definition nested_loop (sz : N) (fuel : nat) (o : object) : out (list N) :=
  finished (traverse (kind_of o) sz fuel (p_ptr (proxy_of o)) (p_descs (proxy_of o))).

(* ---- samplers ---- *)

(* the samplers of container_nd.h 1106-1180; the assertion of transform_index: only
   that of sampler_clamp has one (1176), size != 0 *)
Inductive which := ByDefault | NoCheck | Zero | Clamp.
Definition sampler_of (w : which) : sampler :=
  match w with
  | ByDefault => sampler_default | NoCheck => sampler_no_check
  | Zero => sampler_zero | Clamp => sampler_clamp
  end.
Definition needs (w : which) (n : N) : bool :=
  match w with Clamp => negb (n =? 0) | _ => true end.

(* container_nd.h 1024-1046: the elements of a container whose data are contiguous
   are read through data(), without a subscript that could check *)
Fixpoint get_continuous (debug : bool) (w : which) (sz : N) (p : proxy) (dim : nat) (off : N) (is : list Z) : out N :=
  let s := sampler_of w in
  match is with
  | [] => NoCompile
  | [i] => requires debug (needs w (size p dim))
             (Go (add64 (p_ptr p) (mul64 (add64 off (s_transform s dim (s_index s i) (size p dim))) sz)))
  | i :: r => requires debug (needs w (size p dim))
             (get_continuous debug w sz p (S dim)
               (mul64 (add64 off (s_transform s dim (s_index s i) (size p dim))) (size p (S dim))) r)
  end.
(* container_nd.h 996-1014: a chain of subscripts *)
Fixpoint get_strided (debug : bool) (w : which) (sz : N) (o : object) (dim : nat) (is : list Z) : out N :=
  let s := sampler_of w in
  match is with
  | [] => NoCompile
  | i :: r =>
      requires debug (needs w (size (proxy_of o) 0))
        (let j := s_transform s dim (s_index s i) (size (proxy_of o) 0) in
         match r with
         | [] => element debug sz o j
         | _ => then_ (subscript debug sz o j) (fun o' => get_strided debug w sz o' (S dim) r)
         end)
  end.
(* as in NdModel.fetch *)
Definition get (debug : bool) (w : which) (sz : N) (o : object) (is : list Z) : out N :=
  match kind_of o, is with
  | Plain, _ | Strided, [_] => get_continuous debug w sz (proxy_of o) 0 0 is
  | Strided, _ => get_strided debug w sz o 0 is
  end.
(* 950-963 load_impl_, 965-975 at_impl_; the bounds are checked before *)
Definition load_by (debug : bool) (w : which) (sz : N) (o : object) (is : list Z) : out N :=
  if negb (length is =? dims o)%nat then NoCompile
  else if check_bounds (sampler_of w) (proxy_of o) 0 is then get debug w sz o is
  else if s_boundary (sampler_of w) then Padding else Thrown.
Definition at_by (debug : bool) (w : which) (sz : N) (o : object) (is : list Z) : out N :=
  if negb (length is =? dims o)%nat then NoCompile
  else if check_bounds (sampler_of w) (proxy_of o) 0 is then get debug w sz o is else Thrown.

(* ---- programs ---- *)

(* a program goes from object to object and in the end touches elements *)
Inductive step :=
| Sub (i : N)                          (* o = o[i] *)
| AsView                               (* o = array_view_nd(o) *)
| Reshape (e : N) (ext : list N).      (* o = o.reshape(extents) *)
Inductive use :=
| Elem (i : N)                         (* o[i], of one dimension *)
| At_ (w : which) (is : list Z)        (* yato::at *)
| Load (w : which) (is : list Z)       (* yato::load *)
| PlainLoop                            (* for(auto & x : o.plain_range()) *)
| NestedLoop.                          (* loops over o, over each row of o, ... *)

Definition do_step (debug : bool) (sz : N) (o : object) (s : step) : out object :=
  match s with
  | Sub i => subscript debug sz o i
  | AsView => Go (as_view sz o)
  | Reshape e ext => reshaped debug sz o e ext
  end.
Fixpoint do_steps (debug : bool) (sz : N) (o : object) (l : list step) : out object :=
  match l with
  | [] => Go o
  | s :: r => then_ (do_step debug sz o s) (fun o' => do_steps debug sz o' r)
  end.
(* the addresses touched *)
Definition do_use (debug : bool) (sz : N) (fuel : nat) (o : object) (u : use) : out (list N) :=
  match u with
  | Elem i => then_ (element debug sz o i) (fun a => Go [a])
  | At_ w is => then_ (at_by debug w sz o is) (fun a => Go [a])
  | Load w is => then_ (load_by debug w sz o is) (fun a => Go [a])
  | PlainLoop => plain_loop debug sz fuel o
  | NestedLoop => nested_loop sz fuel o
  end.
Definition program (debug : bool) (sz : N) (fuel : nat) (o : object) (l : list step) (u : use) : out (list N) :=
  then_ (do_steps debug sz o l) (fun o' => do_use debug sz fuel o' u).
