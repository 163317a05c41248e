(* Model of include/yato/vector_nd.h: details::default_capacity_policy (50-69),
   details::raw_vector (75-553) and the one-dimensional vector_nd_impl
   (1978-3147), over the element functions of include/yato/memory_utility.h.

   Memory is a set of blocks of cells; a cell is raw or holds a constructed
   element.  Whatever C++ leaves undefined, and whatever would leak an element, is
   the outcome Bad: reading, moving or destroying a raw cell, constructing over
   an element, touching a freed block or a cell outside its block, freeing a
   block that still holds elements or with the wrong length, a loop over a range
   whose end lies before its beginning.

   Simplifications:
   - a release build: YATO_REQUIRES / YATO_ASSERT and the checks under YATO_DEBUG
     (raw_offset_checked_) do nothing; an iterator outside [begin, end] is Bad;
   - the generic (non-trivial element type) branches are modelled here; the branches
     for trivial types, with memcpy/memmove and without destroy, in TrivModel;
   - transfer_to_* take const pointers, so std::move_if_noexcept gives a const
     rvalue and the elements are always copied: a transfer is a copy;
   - every element construction and every allocation may throw: the oracles fails
     and nomem decide for the k-th such event of the program; destructors never
     throw;
   - a stateless allocator; sizes are natural numbers, the one comparison with
     the largest size_t (line 62) is against a parameter;
   - line 220 of memory_utility.h forms a pointer before the first cell when the
     range starts at 0; it is not dereferenced and not modelled;
   - allocating 0 cells gives a block without cells. *)
From Coq Require Import List Bool Arith.
Import ListNotations.

Section Model.
Context {V : Type}.
Variable fails : nat -> bool.             (* element construction throws *)
Variable nomem : nat -> bool.             (* allocation throws *)
Variable half : nat.                     (* numeric_limits<size_t>::max() / 2 *)

Definition cell := option V.
Record mem := Mem { blk : nat -> option (list cell); next : nat; tick : nat }.
Inductive out (A : Type) := Ok (a : A) (m : mem) | Exc (a : A) (m : mem) | Bad.
Arguments Ok {A}. Arguments Exc {A}. Arguments Bad {A}.

(* what an element is constructed from *)
Inductive src := Ext (v : V) | Ref (b i : nat).

Definition set_blk (m : mem) (b : nat) (l : option (list cell)) : mem :=
  Mem (fun b' => if Nat.eqb b' b then l else blk m b') (next m) (tick m).
Definition step (m : mem) : mem := Mem (blk m) (next m) (S (tick m)).
Fixpoint put (l : list cell) (i : nat) (c : cell) : list cell :=
  match l, i with
  | [], _ => []
  | _ :: t, 0 => c :: t
  | x :: t, S i' => x :: put t i' c
  end.
Definition read (m : mem) (s : src) : option V :=
  match s with
  | Ext v => Some v
  | Ref b i => match blk m b with
               | Some l => match nth_error l i with Some (Some v) => Some v | _ => None end
               | None => None
               end
  end.

(* ---- memory_utility.h ---- *)
(* allocator_traits::construct *)
Definition construct (b i : nat) (s : src) (m : mem) : out unit :=
  match blk m b with
  | Some l => match nth_error l i, read m s with
              | Some None, Some v => if fails (tick m) then Exc tt (step m)
                                     else Ok tt (step (set_blk m b (Some (put l i (Some v)))))
              | _, _ => Bad
              end
  | None => Bad
  end.
(* allocator_traits::destroy *)
Definition destroy1 (b i : nat) (m : mem) : out unit :=
  match blk m b with
  | Some l => match nth_error l i with
              | Some (Some _) => Ok tt (set_blk m b (Some (put l i None)))
              | _ => Bad
              end
  | None => Bad
  end.
(* destroy_operation::apply 127-137, destroy 374-381 *)
Fixpoint destroy_n (n b i : nat) (m : mem) : out unit :=
  match n with
  | 0 => Ok tt m
  | S n' => match destroy1 b i m with
            | Ok _ m' => destroy_n n' b (S i) m'
            | _ => Bad
            end
  end.
Definition destroy (b i j : nat) (m : mem) : out unit :=
  if j <? i then Bad else destroy_n (j - i) b i m.
(* copy_operation::apply 59-69, the loop of fill_uninitialized 275-286 and
   transfer_operation::apply 152-162: construct consecutive cells; the iterator
   dst is passed by reference and tells how far it came *)
Fixpoint copy (b i : nat) (ss : list src) (m : mem) : out nat :=
  match ss with
  | [] => Ok i m
  | s :: t => match construct b i s m with
              | Ok _ m' => copy b (S i) t m'
              | Exc _ m' => Exc i m'
              | Bad => Bad
              end
  end.
Definition fill (b first last : nat) (s : src) (m : mem) : out nat :=
  if last <? first then Bad else copy b first (repeat s (last - first)) m.
Definition transfer (bs first last bd dst : nat) (m : mem) : out nat :=
  if last <? first then Bad else copy bd dst (map (Ref bs) (seq first (last - first))) m.
(* transfer_left_operation::apply 182-195 *)
Fixpoint left_n (n b src dst : nat) (m : mem) : out nat :=
  match n with
  | 0 => Ok dst m
  | S n' => match destroy1 b dst m with
            | Ok _ m1 => match construct b dst (Ref b src) m1 with
                         | Ok _ m2 => left_n n' b (S src) (S dst) m2
                         | Exc _ m2 => Exc dst m2
                         | Bad => Bad
                         end
            | _ => Bad
            end
  end.
Definition transfer_left (b first last dst : nat) (m : mem) : out nat :=
  if last <? first then Bad else left_n (last - first) b first dst m.
(* transfer_right_operation::apply 214-229: from the last element downwards; src
   and dst are one behind the C++ pointers src_rlast and dst_last, so that they
   stay natural numbers *)
Fixpoint right_n (n b src1 dst1 : nat) (m : mem) : out nat :=
  match n with
  | 0 => Ok dst1 m
  | S n' => match destroy1 b (pred dst1) m with
            | Ok _ m1 => match construct b (pred dst1) (Ref b (pred src1)) m1 with
                         | Ok _ m2 => right_n n' b (pred src1) (pred dst1) m2
                         | Exc _ m2 => Exc dst1 m2
                         | Bad => Bad
                         end
            | _ => Bad
            end
  end.
Definition transfer_right (b first last dst1 : nat) (m : mem) : out nat :=
  if last <? first then Bad else right_n (last - first) b last dst1 m.
(* allocate 247-256, deallocate 261-266 *)
Definition allocate (n : nat) (m : mem) : out nat :=
  if nomem (tick m) then Exc 0 (step m)
  else Ok (next m) (Mem (fun b' => if Nat.eqb b' (next m) then Some (repeat None n) else blk m b') (S (next m)) (S (tick m))).
Definition raw (c : cell) : bool := match c with None => true | Some _ => false end.
Definition deallocate (b n : nat) (m : mem) : out unit :=
  match blk m b with
  | Some l => if Nat.eqb (length l) n && forallb raw l then Ok tt (set_blk m b None) else Bad
  | None => Bad
  end.

(* run the handler, which must not fail, then rethrow *)
Definition rethrow {A B} (x : out A) (b : B) : out B :=
  match x with Ok _ m => Exc b m | _ => Bad end.
Definition andthen {A B} (x : out A) (f : mem -> out B) : out B :=
  match x with Ok _ m => f m | _ => Bad end.

(* ---- raw_vector ---- *)
Record rv := RV { ptr : option nat; cap : nat }.
(* default_capacity_policy::increase 59-68 *)
Definition increase (old new : nat) : nat :=
  if old <? half then Nat.max new (2 * old) else new.
(* destroy and free the old block *)
Definition drop_old (r : rv) (old_size : nat) (m : mem) : out unit :=
  match ptr r with
  | None => Ok tt m
  | Some ob => andthen (destroy ob 0 old_size m) (deallocate ob (cap r))
  end.
(* the catch blocks that destroy what was built in a new block and free it *)
Definition drop_new {A} (nb dst c : nat) (a : A) (m : mem) : out A :=
  rethrow (andthen (destroy nb 0 dst m) (deallocate nb c)) a.

(* 199-214 init_from_value; the state must be empty *)
Definition init_from_value (r : rv) (n : nat) (s : src) (m : mem) : out rv :=
  match allocate n m with
  | Exc _ m1 => Exc r m1
  | Bad => Bad
  | Ok nb m1 => match fill nb 0 n s m1 with
                | Exc dst m2 => drop_new nb dst n r m2
                | Bad => Bad
                | Ok _ m2 => Ok (RV (Some nb) n) m2
                end
  end.
(* 223-238 init_from_range *)
Definition init_from_range (r : rv) (n : nat) (ss : list src) (m : mem) : out rv :=
  match allocate n m with
  | Exc _ m1 => Exc r m1
  | Bad => Bad
  | Ok nb m1 => match copy nb 0 ss m1 with
                | Exc dst m2 => drop_new nb dst n r m2
                | Bad => Bad
                | Ok _ m2 => Ok (RV (Some nb) n) m2
                end
  end.
(* 248-289; the boolean is the out-parameter valid *)
Definition raw_assign (r : rv) (old_size new_size : nat) (s : src) (m : mem) : out (rv * bool) :=
  if (new_size <=? cap r) && negb (cap r =? 0) then
    match ptr r with
    | None => Bad
    | Some ob =>
        andthen (destroy ob 0 old_size m) (fun m1 =>
          match fill ob 0 new_size s m1 with
          | Ok _ m2 => Ok (r, true) m2
          | Exc dst m2 => rethrow (destroy ob 0 dst m2) (r, false)
          | Bad => Bad
          end)
    end
  else
    let nc := increase (cap r) new_size in
    match allocate nc m with
    | Exc _ m1 => Exc (r, true) m1
    | Bad => Bad
    | Ok nb m1 =>
        match fill nb 0 new_size s m1 with
        | Exc dst m2 => drop_new nb dst nc (r, true) m2
        | Bad => Bad
        | Ok _ m2 => andthen (drop_old r old_size m2) (fun m3 => Ok (RV (Some nb) nc, true) m3)
        end
    end.
(* 292-339 *)
Definition raw_resize (r : rv) (old_size new_size : nat) (s : src) (m : mem) : out rv :=
  if new_size <? old_size then
    match ptr r with
    | None => Bad
    | Some ob => andthen (destroy ob new_size old_size m) (Ok r)
    end
  else if old_size <? new_size then
    if cap r <? new_size then
      let nc := increase (cap r) new_size in
      match allocate nc m with
      | Exc _ m1 => Exc r m1
      | Bad => Bad
      | Ok nb m1 =>
          match (match ptr r with Some ob => transfer ob 0 old_size nb 0 m1 | None => Ok 0 m1 end) with
          | Exc dst m2 => drop_new nb dst nc r m2
          | Bad => Bad
          | Ok dst m2 =>
              match fill nb dst new_size s m2 with
              | Exc dst' m3 => drop_new nb dst' nc r m3
              | Bad => Bad
              | Ok _ m3 => andthen (drop_old r old_size m3) (Ok (RV (Some nb) nc))
              end
          end
      end
    else
      match ptr r with
      | None => Bad
      | Some ob =>
          match fill ob old_size new_size s m with
          | Ok _ m1 => Ok r m1
          | Exc dst m1 => rethrow (destroy ob old_size dst m1) r
          | Bad => Bad
          end
      end
  else Ok r m.
(* move to a new block of nc cells; shared by prepare_push_back 341-365, reserve
   501-523 and shrink_to_fit 529-552, which have the same statements *)
Definition relocate (r : rv) (old_size nc : nat) (m : mem) : out rv :=
  match allocate nc m with
  | Exc _ m1 => Exc r m1
  | Bad => Bad
  | Ok nb m1 =>
      match ptr r with
      | None => Ok (RV (Some nb) nc) m1
      | Some ob =>
          match transfer ob 0 old_size nb 0 m1 with
          | Exc dst m2 => drop_new nb dst nc r m2
          | Bad => Bad
          | Ok _ m2 => andthen (drop_old r old_size m2) (Ok (RV (Some nb) nc))
          end
      end
  end.
(* 341-365; the range returned is [old_size, new_size) of the new block *)
Definition prepare_push_back (r : rv) (old_size new_size : nat) (m : mem) : out rv :=
  if cap r <? new_size then relocate r old_size (increase (cap r) new_size) m else Ok r m.
(* 370-461; second component: valid_count after an exception *)
Definition prepare_insert (r : rv) (old_size off count es : nat) (m : mem) : out (rv * nat) :=
  let ins := count * es in
  let new_size := old_size + ins in
  if cap r <? new_size then
    let nc := increase (cap r) new_size in
    match allocate nc m with
    | Exc _ m1 => Exc (r, 0) m1                        (* valid_count keeps its initial 0 (2031) *)
    | Bad => Bad
    | Ok nb m1 =>
        match ptr r with
        | None => Ok (RV (Some nb) nc, 0) m1
        | Some ob =>
            match transfer ob 0 off nb 0 m1 with
            | Exc dl m2 => drop_new nb dl nc (r, old_size / es) m2
            | Bad => Bad
            | Ok dl m2 =>
                match transfer ob off old_size nb (off + ins) m2 with
                | Exc dr m3 =>
                    andthen (destroy nb 0 dl m3) (fun m4 =>
                      rethrow (andthen (destroy nb (off + ins) dr m4) (deallocate nb nc)) (r, old_size / es))
                | Bad => Bad
                | Ok _ m3 => andthen (drop_old r old_size m3) (Ok (RV (Some nb) nc, 0))
                end
            end
        end
    end
  else
    match ptr r with
    | None => if Nat.eqb old_size 0 && Nat.eqb ins 0 then Ok (r, 0) m else Bad
    | Some ob =>
        let right := old_size - off in
        if right <=? ins then
          match transfer ob off old_size ob (off + ins) m with
          | Exc dst m1 => rethrow (destroy ob (off + ins) dst m1) (r, old_size / es)
          | Bad => Bad
          | Ok _ m1 => andthen (destroy ob off old_size m1) (Ok (r, 0))
          end
        else
          let tail := new_size - old_size in
          match transfer ob (old_size - tail) old_size ob (new_size - tail) m with
          | Exc dt m1 => rethrow (destroy ob (new_size - tail) dt m1) (r, old_size / es)
          | Bad => Bad
          | Ok dt m1 =>
              match transfer_right ob off (old_size - tail) old_size m1 with
              | Exc dst1 m2 =>
                  (* dst1 is one behind dst *)
                  let vc := pred dst1 / es in
                  andthen (destroy ob (vc * es) (pred dst1) m2) (fun m3 => rethrow (destroy ob dst1 dt m3) (r, vc))
              | Bad => Bad
              | Ok _ m2 => andthen (destroy ob off (off + ins) m2) (Ok (r, 0))
              end
          end
    end.
(* 466-495 *)
Definition raw_erase (r : rv) (old_size off count es : nat) (m : mem) : out (rv * nat) :=
  let era := count * es in
  if old_size <? era then Bad else
  let new_size := old_size - era in
  match ptr r with
  | None => Bad
  | Some ob =>
      match transfer_left ob (off + era) old_size off m with
      | Exc dst m1 =>
          let vc := dst / es in
          andthen (destroy ob (vc * es) dst m1) (fun m2 => rethrow (destroy ob (S dst) old_size m2) (r, vc))
      | Bad => Bad
      | Ok _ m1 => andthen (destroy ob new_size old_size m1) (Ok (r, 0))
      end
  end.
(* 501-523 *)
Definition raw_reserve (r : rv) (old_size nc : nat) (m : mem) : out rv :=
  if cap r <? nc then relocate r old_size nc m else Ok r m.
(* 529-552 *)
Definition raw_shrink (r : rv) (n : nat) (m : mem) : out rv :=
  match ptr r with
  | None => Ok r m
  | Some ob =>
      if Nat.eqb n (cap r) then Ok r m
      else if 0 <? n then relocate r n n m
      else andthen (drop_old r n m) (Ok (RV None n))
  end.

(* ---- the one-dimensional vector, 1978-3147 ---- *)
Record vec := Vec { vraw : rv; vsize : nat }.
Definition vec0 : vec := Vec (RV None 0) 0.                       (* 2078-2082 *)
(* destroy_ 2059-2065 and clear 2806-2810 *)
Definition destroy_all (v : vec) (m : mem) : out unit :=
  if Nat.eqb (vsize v) 0 then Ok tt m
  else match ptr (vraw v) with Some b => destroy b 0 (vsize v) m | None => Bad end.
Definition clear (v : vec) (m : mem) : out vec := andthen (destroy_all v m) (Ok (Vec (vraw v) 0)).
(* ~vector_nd_impl 2356-2359 and ~raw_vector 143-148 *)
Definition free_raw (r : rv) (m : mem) : out unit :=
  match ptr r with Some b => deallocate b (cap r) m | None => Ok tt m end.
Definition destruct_vec (v : vec) (m : mem) : out unit := andthen (destroy_all v m) (free_raw (vraw v)).
(* 2907-2914, emplace_back 2932-2941: the value is a reference *)
Definition push_back (v : vec) (s : src) (m : mem) : out vec :=
  match prepare_push_back (vraw v) (vsize v) (S (vsize v)) m with
  | Exc r m1 => Exc (Vec r (vsize v)) m1
  | Bad => Bad
  | Ok r m1 =>
      match ptr r with
      | None => Bad
      | Some b => match construct b (vsize v) s m1 with
                  | Ok _ m2 => Ok (Vec r (S (vsize v))) m2
                  | Exc _ m2 => Exc (Vec r (vsize v)) m2
                  | Bad => Bad
                  end
      end
  end.
(* 2946-2953 *)
Definition pop_back (v : vec) (m : mem) : out vec :=
  match vsize v with
  | 0 => Exc v m
  | S n => match ptr (vraw v) with
           | None => Bad
           | Some b => andthen (destroy1 b n m) (Ok (Vec (vraw v) n))
           end
  end.
(* 2029-2040 prepare_insert_ *)
Definition prepare_insert_1 (v : vec) (off count : nat) (m : mem) : out vec :=
  match prepare_insert (vraw v) (vsize v) off count 1 m with
  | Ok (r, _) m1 => Ok (Vec r (vsize v)) m1
  | Exc (r, vc) m1 => Exc (Vec r vc) m1
  | Bad => Bad
  end.
(* what the three insert functions do after prepare_insert_: construct the new
   elements, on failure destroy the detached right part and keep what was
   constructed (2958-2978, 3028-3058, 3064-3091) *)
Definition insert_srcs (v : vec) (off : nat) (ss : list src) (m : mem) : out vec :=
  match prepare_insert_1 v off (length ss) m with
  | Exc v1 m1 => Exc v1 m1
  | Bad => Bad
  | Ok v1 m1 =>
      match ptr (vraw v1) with
      | None => Bad
      | Some b =>
          match copy b off ss m1 with
          | Ok _ m2 => Ok (Vec (vraw v1) (vsize v1 + length ss)) m2
          | Exc dst m2 =>
              rethrow (destroy b (off + length ss) (vsize v1 + length ss) m2) (Vec (vraw v1) dst)
          | Bad => Bad
          end
      end
  end.
(* 2958-2978, and emplace 3005-3024 *)
Definition insert_one (v : vec) (off : nat) (s : src) (m : mem) : out vec :=
  if vsize v <? off then Bad else insert_srcs v off [s] m.
(* 3028-3058 *)
Definition insert_count (v : vec) (off count : nat) (s : src) (m : mem) : out vec :=
  if vsize v <? off then Bad
  else if Nat.eqb count 0 then Ok v m else insert_srcs v off (repeat s count) m.
(* 3064-3091 for a forward range *)
Definition insert_range (v : vec) (off : nat) (ss : list src) (m : mem) : out vec :=
  if vsize v <? off then Bad
  else match ss with [] => Ok v m | _ => insert_srcs v off ss m end.
(* 2042-2057 erase_ *)
Definition erase_ (v : vec) (off count : nat) (m : mem) : out vec :=
  match raw_erase (vraw v) (vsize v) off count 1 m with
  | Ok (r, _) m1 => Ok (Vec r (vsize v - count)) m1
  | Exc (r, vc) m1 => Exc (Vec r vc) m1
  | Bad => Bad
  end.
(* 3105-3112 *)
Definition erase_one (v : vec) (off : nat) (m : mem) : out vec :=
  if vsize v <? off then Bad
  else if Nat.eqb (vsize v) 0 then Exc v m else erase_ v off 1 m.
(* 3117-3133: offsets of the two iterators *)
Definition erase_range (v : vec) (first last : nat) (m : mem) : out vec :=
  if (vsize v <? first) || (vsize v <? last) then Bad
  else if last <? first then Exc v m
  else if Nat.eqb first last then Ok v m
  else if vsize v <? last - first then Exc v m
  else erase_ v first (last - first) m.
(* 2834-2838; 2824-2828 constructs default values *)
Definition resize (v : vec) (n : nat) (s : src) (m : mem) : out vec :=
  match raw_resize (vraw v) (vsize v) n s m with
  | Ok r m1 => Ok (Vec r n) m1
  | Exc r m1 => Exc (Vec r (vsize v)) m1
  | Bad => Bad
  end.
(* 2380-2393 *)
Definition assign (v : vec) (n : nat) (s : src) (m : mem) : out vec :=
  match raw_assign (vraw v) (vsize v) n s m with
  | Ok (r, _) m1 => Ok (Vec r n) m1
  | Exc (r, valid) m1 => Exc (Vec r (if valid then vsize v else 0)) m1
  | Bad => Bad
  end.
(* 2798-2801 *)
Definition reserve (v : vec) (n : nat) (m : mem) : out vec :=
  match raw_reserve (vraw v) (vsize v) n m with
  | Ok r m1 => Ok (Vec r (vsize v)) m1
  | Exc r m1 => Exc (Vec r (vsize v)) m1
  | Bad => Bad
  end.
(* 2815-2818 *)
Definition shrink_to_fit (v : vec) (m : mem) : out vec :=
  match raw_shrink (vraw v) (vsize v) m with
  | Ok r m1 => Ok (Vec r (vsize v)) m1
  | Exc r m1 => Exc (Vec r (vsize v)) m1
  | Bad => Bad
  end.
(* 2233-2238: copy constructor; an exception leaves no object *)
Definition elems (v : vec) : list src :=
  match ptr (vraw v) with Some b => map (Ref b) (seq 0 (vsize v)) | None => [] end.
Definition copy_construct (v : vec) (m : mem) : out vec :=
  match init_from_range (RV None 0) (vsize v) (elems v) m with
  | Ok r m1 => Ok (Vec r (vsize v)) m1
  | Exc _ m1 => Exc vec0 m1
  | Bad => Bad
  end.
(* 2254-2259: this_type{other}.swap( *this), then the temporary dies *)
Definition copy_assign (v other : vec) (m : mem) : out vec :=
  match copy_construct other m with
  | Ok t m1 => andthen (destruct_vec v m1) (Ok t)
  | Exc _ m1 => Exc v m1
  | Bad => Bad
  end.
(* 2264-2273 and 121-138: gives the two vectors after v = std::move(other) *)
Definition move_assign (v other : vec) (m : mem) : out (vec * vec) :=
  andthen (destroy_all v m) (fun m1 => andthen (free_raw (vraw v) m1) (Ok (other, vec0))).
End Model.
Arguments Ok {V A}. Arguments Exc {V A}. Arguments Bad {V A}.
