(* Making vectors out of other things: the constructors of vector_nd_impl from
   nested initializer lists, ranges, ranges of sizes, proxies and views, reshape,
   and the conversions from and to std::vector.
   /repo/include/yato/vector_nd.h: 198-245 (raw_vector), 608-645, 720-756,
   778-852, 884-888, 905-1000, 1027-1040, 1070-1118, 1157-1193 (many dimensions),
   2067-2073, 2090-2229, 2298-2325, 2338-2351, 2361-2375, 2404-2440 (one
   dimension); container_base.h 161-167 (total_size of dimensionality).

   The model keeps the events in memory: allocations, construction of the
   element at a place of the new block, destruction, deallocation.  Whether the
   allocation fails is a flag, whether the copy of an element throws is a list of
   booleans, one consumed by each construction.

   Simplifications: the allocator is not modelled (the new vector gets the one it
   was told); elements are values; a source that has rows (a proxy or a view) is
   given by the nested list of its elements and, where it says it is continuous,
   by the plain range of them; release build. *)
From Coq Require Import NArith ZArith List Bool.
Import ListNotations.
Local Open Scope N_scope.

Definition size_mod : N := 2 ^ 64.
Definition wrap_mul (a b : N) : N := (a * b) mod size_mod.

(* init_subsizes_ 778-784 and init_sizes_ 786-792: the second members of the
   descriptors *)
Fixpoint totals (sizes : list N) : list N :=
  match sizes with
  | [] => []
  | [n] => [n]
  | n :: r => wrap_mul n (hd 0 (totals r)) :: totals r
  end.
Definition total (sizes : list N) : N := hd 0 (totals sizes).
(* container_base.h 161-167 *)
Fixpoint dims_total (sizes : list N) : N :=
  match sizes with
  | [] => 0
  | [n] => n
  | n :: r => wrap_mul n (dims_total r)
  end.

Section Make.
Variable A : Type.
Variable fresh : A.              (* an element made from no arguments *)
Variable taken : A -> A.         (* what is left of an element that was moved from *)

Inductive event :=
| Alloc (n : N)
| Copy (k : nat) (v : A)        (* an element is copied to place k *)
| Move (k : nat) (v : A)
| Default (k : nat)
| Unmake (k : nat)
| Free (n : N).
Inductive error := BadAlloc | Argument | OutOfRange | Element.

(* m_descriptors, the elements that are alive in the block, m_allocated_size *)
Record vec := Vec { sizes : list N; live : list A; cap : N }.
Definition total_size (v : vec) : N := total (sizes v).

(* while a block is being filled: what is in it, and which copies will throw *)
Record filling := Filling { made : list A; sched : list bool; tr : list event }.
Inductive fill_end := Filled (f : filling) | Threw (e : error) (f : filling) | Over.

(* alloc_traits::construct at dst; ++dst *)
Inductive source := ByCopy (v : A) | ByMove (v : A) | NoArg.
Definition made_of (s : source) : A := match s with ByCopy v | ByMove v => v | NoArg => fresh end.
Definition event_of (k : nat) (s : source) : event :=
  match s with ByCopy v => Copy k v | ByMove v => Move k v | NoArg => Default k end.
Definition construct (n : N) (f : filling) (s : source) : fill_end :=
  let k := length (made f) in
  if N.of_nat k <? n then
    match sched f with
    | true :: r => Threw Element (Filling (made f) r (tr f))
    | _ => Filled (Filling (made f ++ [made_of s]) (tl (sched f)) (tr f ++ [event_of k s]))
    end
  else Over.
Fixpoint construct_all (n : N) (f : filling) (l : list source) : fill_end :=
  match l with
  | [] => Filled f
  | s :: t => match construct n f s with
              | Filled f' => construct_all n f' t
              | x => x
              end
  end.

(* 198-245, 608-645: allocate, fill, and undo in case of an exception *)
Inductive result :=
| Made (v : vec) (t : list event)
| Failed (e : error) (t : list event)
| Undefined.
Definition unmakes (f : filling) : list event := map Unmake (seq 0 (length (made f))).
Definition in_new_block (sz : list N) (n : N) (mem : bool) (sch : list bool) (fill : filling -> fill_end) : result :=
  if mem then
    match fill (Filling [] sch [Alloc n]) with
    | Filled f => Made (Vec sz (made f) n) (tr f)
    | Threw e f => Failed e (tr f ++ unmakes f ++ [Free n])
    | Over => Undefined
    end
  else Failed BadAlloc [].
(* ... which the constructors of many dimensions do only if plain_size != 0; with
   one dimension a block for no elements is allocated (in a debug build that is
   an assertion, see C89) *)
Definition if_any (sz : list N) (n : N) (r : result) : result :=
  match sz with
  | [_] => r
  | _ => if n =? 0 then Made (Vec sz [] 0) [] else r
  end.

(* 905-930, 2090-2126: sizes only, or sizes and a value *)
Definition fill_value (n : N) (s : source) (f : filling) : fill_end := construct_all n f (repeat s (N.to_nat n)).
Definition make_sizes (sz : list N) (s : source) (mem : bool) (sch : list bool) : result :=
  if_any sz (total sz) (in_new_block sz (total sz) mem sch (fill_value (total sz) s)).

(* ---- nested initializer lists, 28-45: il d has d + 1 dimensions ---- *)
Fixpoint il (d : nat) : Type := match d with O => list A | S d' => list (il d') end.

(* 818-834; the sizes are those of the dimensions from this one on *)
Fixpoint deduce (d : nat) : il d -> list N -> list N :=
  match d with
  | O => fun l sz => match sz with
                     | s :: r => N.max s (N.of_nat (length l)) :: r
                     | [] => []
                     end
  | S d' => fun l sz => match sz with
                        | s :: r => N.max s (N.of_nat (length l)) :: fold_left (fun r sub => deduce d' sub r) l r
                        | [] => []
                        end
  end.
(* 808-815 *)
Definition sizes_of (d : nat) (l : il d) : list N := deduce d l (repeat 0 (S d)).

(* 733-756: the innermost lists; the subtraction does not wrap, because the size
   was deduced as the maximum *)
Definition copy_flat (n dim : N) (l : list A) (f : filling) : fill_end :=
  match construct_all n f (map ByCopy l) with
  | Filled f1 =>
      if dim - N.of_nat (length l) =? 0 then Filled f1
      else match rev l with
           | [] => Threw Argument f1
           | v :: _ => construct_all n f1 (repeat (ByCopy v) (N.to_nat (dim - N.of_nat (length l))))
           end
  | x => x
  end.
(* for (sub : list) g(sub), leaving by an exception *)
Fixpoint each (T : Type) (g : T -> filling -> fill_end) (l : list T) (f : filling) : fill_end :=
  match l with
  | [] => Filled f
  | x :: t => match g x f with
              | Filled f' => each T g t f'
              | y => y
              end
  end.
(* 720-731 *)
Fixpoint copy_nested (n : N) (d : nat) : list N -> il d -> filling -> fill_end :=
  match d with
  | O => fun sz l f => copy_flat n (hd 0 sz) l f
  | S d' => fun sz l f =>
      if hd 0 sz =? N.of_nat (length l) then each (il d') (copy_nested n d' (tl sz)) l f
      else Threw Argument f
  end.
(* 959-970.  With one dimension (2172-2179) the elements are copied as a range,
   which is the same: there is no tail *)
Definition make_ilist (d : nat) (l : il d) (mem : bool) (sch : list bool) : result :=
  let sz := sizes_of d l in
  if_any sz (total sz) (in_new_block sz (total sz) mem sch (copy_nested (total sz) d sz l)).

(* ---- ranges of elements ---- *)
Definition signed (n : N) : Z := let z := Z.of_N n in if (z <? 2 ^ 63)%Z then z else (z - 2 ^ 64)%Z.
Definition from_range (sz : list N) (n : N) (l : list source) (mem : bool) (sch : list bool) : result :=
  in_new_block sz n mem sch (fun f => construct_all n f l).       (* 218-245 *)
(* 932-957, two and more dimensions *)
Definition make_range (sz : list N) (l : list A) (mem : bool) (sch : list bool) : result :=
  if (signed (total sz) =? Z.of_nat (length l))%Z
  then if_any sz (total sz) (from_range sz (total sz) (map ByCopy l) mem sch)
  else Failed Argument [].
(* 2128-2170, one dimension *)
Definition make_range_1d (n : N) (l : list A) (mem : bool) (sch : list bool) : result :=
  from_range [n] n (map ByCopy l) mem sch.

(* ---- ranges of sizes: 972-1000 and 800-806; 2181-2207 ---- *)
Definition make_size_range (dims : nat) (ext : list N) (s : source) (mem : bool) (sch : list bool) : result :=
  if Nat.eqb dims 1 then
    match ext with
    | [n] => in_new_block [n] n mem sch (fill_value n s)
    | _ => Failed OutOfRange []
    end
  else if Nat.leb (length ext) dims
       then make_sizes (ext ++ repeat 0 (dims - length ext)) s mem sch
       else Undefined.         (* std::copy behind the end of m_descriptors *)

(* ---- proxies and views: 1070-1118, 836-851, 2298-2325 (always continuous) ---- *)
Fixpoint fill_rows (n : N) (d : nat) : il d -> filling -> fill_end :=
  match d with
  | O => fun l f => construct_all n f (map ByCopy l)
  | S d' => fun l f => each (il d') (fill_rows n d') l f
  end.
Record rows (d : nat) := Rows {
  row_sizes : list N;                  (* dimensions_range() *)
  plain : option (list A);             (* the plain range, if continuous() *)
  nested : il d                        (* what cbegin() ... of the rows visit *)
}.
Arguments row_sizes {d}. Arguments plain {d}. Arguments nested {d}.
Definition make_rows (d : nat) (r : rows d) (mem : bool) (sch : list bool) : result :=
  let sz := row_sizes r in
  if_any sz (total sz)
    match plain r with
    | Some l => from_range sz (total sz) (map ByCopy l) mem sch
    | None => in_new_block sz (total sz) mem sch (fill_rows (total sz) d (nested r))
    end.

(* ---- reshape ---- *)
(* 1157-1181 and 2404-2427: the elements are copied.  With one new dimension the
   constructor of 2133 is called, otherwise that of 937 *)
Definition reshape (v : vec) (ext : list N) (mem : bool) (sch : list bool) : result :=
  if dims_total ext =? total_size v then
    match ext with
    | [n] => make_range_1d n (live v) mem sch
    | _ => make_range ext (live v) mem sch
    end
  else Failed Argument [].
(* 884-888: update_top_dimension_(0); 2067-2073: m_size = 0 *)
Definition tidy (v : vec) : vec := Vec (match sizes v with _ :: r => 0 :: r | [] => [] end) [] 0.
(* 1183-1193, 1026-1040, 2429-2439, 2337-2351: the new vector and the old one *)
Definition reshape_move (v : vec) (ext : list N) : option (vec * vec) :=
  if dims_total ext =? total_size v
  then Some (Vec (match ext with [_] => [dims_total ext] | _ => ext end) (live v) (cap v), tidy v)
  else None.

(* ---- std::vector, one dimension ---- *)
(* 2209-2228, and what the std::vector holds then: the elements from which a move
   constructor was called are left as that left them *)
Definition moves (r : result) : nat :=
  let t := match r with Made _ t | Failed _ t => t | Undefined => [] end in
  length (filter (fun e => match e with Move _ _ => true | _ => false end) t).
Definition from_std (l : list A) (moved : bool) (mem : bool) (sch : list bool) : result * list A :=
  let r := from_range [N.of_nat (length l)] (N.of_nat (length l)) (map (if moved then ByMove else ByCopy) l) mem sch in
  (r, map taken (firstn (moves r) l) ++ skipn (moves r) l).
(* 2361-2375, the new std::vector and what the elements of this one are then.
   plain_cbegin gives pointers to const elements, so that a move iterator over
   them yields const rvalues, which are copied: both conversions do the same *)
Definition to_std (v : vec) (moved : bool) : list A * list A := (live v, live v).
End Make.
