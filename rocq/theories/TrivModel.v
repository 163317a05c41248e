(* Model of include/yato/vector_nd.h for elements of a trivial type (int, float, a
   plain struct): the same functions of raw_vector (75-553) and of the
   one-dimensional vector_nd_impl (1978-3147) as in VecModel, over the
   specialisations of include/yato/memory_utility.h for std::is_trivial types,
   which copy ranges with memcpy and memmove and destroy nothing.

   A cell that was never written is indeterminate; a cell keeps its value when its
   element is destroyed.  Undefined, and hence Bad: memcpy between overlapping
   ranges, a range outside its block, reading an indeterminate cell as a value,
   touching a freed block, freeing a block with the wrong length.

   Simplifications:
   - as in VecModel: a release build, a stateless allocator, natural sizes,
     allocating 0 cells gives a block without cells;
   - the elements are copied from elements of the same type, so that no
     constructor throws; only the allocator does;
   - memcpy and memmove of no bytes do nothing, whatever their pointers (C asks for
     valid ones: copying an empty vector passes a null source);
   - the clock that tells which allocation fails counts one event for each element
     copied, as in VecModel, whichever function copies it. *)
From Coq Require Import List Bool Arith.
From Verif Require Import VecModel VecWorld.
Import ListNotations.

Section Model.
Context {V : Type}.
Variable nomem : nat -> bool.            (* allocation throws *)
Variable half : nat.                     (* numeric_limits<size_t>::max() / 2 *)
Variable ptrs : nat -> bool.             (* the iterators passed to the call at this time are pointers *)
Notation cell := (@cell V).
Notation mem := (@mem V).
Notation src := (@src V).
Notation out := (@out V).

(* ---- memory_utility.h ---- *)
Definition advance (n : nat) (m : mem) : mem := Mem (blk m) (next m) (tick m + n).
(* replace the cells of l from dst on *)
Definition blit (l : list cell) (dst : nat) (seg : list cell) : list cell :=
  firstn dst l ++ seg ++ skipn (dst + length seg) l.
(* std::memmove of n elements *)
Definition memmove (bs first n bd dst : nat) (m : mem) : out nat :=
  if n =? 0 then Ok dst m else
  match blk m bs, blk m bd with
  | Some ls, Some ld =>
      if (first + n <=? length ls) && (dst + n <=? length ld)
      then Ok (dst + n) (advance n (set_blk m bd (Some (blit ld dst (firstn n (skipn first ls))))))
      else Bad
  | _, _ => Bad
  end.
(* trivial_copy_n 46-54: std::memcpy *)
Definition memcpy (bs first n bd dst : nat) (m : mem) : out nat :=
  if (bs =? bd) && (first <? dst + n) && (dst <? first + n) && negb (n =? 0) then Bad
  else memmove bs first n bd dst m.
(* allocator_traits::construct: writes the value *)
Definition t_construct (b i : nat) (s : src) (m : mem) : out unit :=
  match blk m b with
  | Some l => match nth_error l i, read m s with
              | Some _, Some v => Ok tt (step (set_blk m b (Some (put l i (Some v)))))
              | _, _ => Bad
              end
  | None => Bad
  end.
(* allocator_traits::destroy of a type without destructor *)
Definition t_destroy1 (b i : nat) (m : mem) : out unit := Ok tt m.
(* destroy_operation::apply 139-147 *)
Definition t_destroy (b i j : nat) (m : mem) : out unit := Ok tt m.
(* the loops of copy_operation 59-69 and fill_uninitialized 275-286 *)
Fixpoint t_loop (b i : nat) (ss : list src) (m : mem) : out nat :=
  match ss with
  | [] => Ok i m
  | s :: t => match t_construct b i s m with
              | Ok _ m' => t_loop b (S i) t m'
              | Exc _ m' => Exc i m'
              | Bad => Bad
              end
  end.
(* copy_operation::apply: 59-69 for iterators of any kind, 72-88 for pointers.  A
   pointer range over an array of the program lies outside all blocks: copying it
   is the loop over its values *)
Fixpoint contiguous (b i : nat) (ss : list src) : bool :=
  match ss with
  | [] => true
  | Ref b' i' :: t => (b' =? b) && (i' =? i) && contiguous b (S i) t
  | Ext _ :: _ => false
  end.
Definition t_copy (plain : bool) (b i : nat) (ss : list src) (m : mem) : out nat :=
  match ss with
  | Ref bs first :: _ =>
      if plain && contiguous bs first ss then memcpy bs first (length ss) b i m else t_loop b i ss m
  | _ => t_loop b i ss m
  end.
Definition t_fill (b first last : nat) (s : src) (m : mem) : out nat :=
  if last <? first then Bad else t_loop b first (repeat s (last - first)) m.
(* transfer_operation::apply 164-176 *)
Definition t_transfer (bs first last bd dst : nat) (m : mem) : out nat :=
  if last <? first then Bad else memcpy bs first (last - first) bd dst m.
(* transfer_left_operation::apply 197-208 *)
Definition t_transfer_left (b first last dst : nat) (m : mem) : out nat :=
  if last <? first then Bad else memmove b first (last - first) b dst m.
(* transfer_right_operation::apply 231-242; dst1 is one behind dst_last *)
Definition t_transfer_right (b first last dst1 : nat) (m : mem) : out nat :=
  if (last <? first) || (dst1 <? last - first) then Bad
  else match memmove b first (last - first) b (dst1 - (last - first)) m with
       | Ok _ m' => Ok (dst1 - (last - first)) m'
       | Exc _ m' => Exc dst1 m'
       | Bad => Bad
       end.
(* deallocate 261-266 *)
Definition t_deallocate (b n : nat) (m : mem) : out unit :=
  match blk m b with
  | Some l => if length l =? n then Ok tt (set_blk m b None) else Bad
  | None => Bad
  end.

(* ---- raw_vector ---- *)
(* destroy and free the old block *)
Definition t_drop_old (r : rv) (old_size : nat) (m : mem) : out unit :=
  match ptr r with
  | None => Ok tt m
  | Some ob => andthen (t_destroy ob 0 old_size m) (t_deallocate ob (cap r))
  end.
(* the catch blocks that destroy what was built in a new block and free it *)
Definition t_drop_new {A} (nb dst c : nat) (a : A) (m : mem) : out A :=
  rethrow (andthen (t_destroy nb 0 dst m) (t_deallocate nb c)) a.

(* 199-214 init_from_value; the state must be empty *)
Definition t_init_from_value (r : rv) (n : nat) (s : src) (m : mem) : out rv :=
  match allocate nomem n m with
  | Exc _ m1 => Exc r m1
  | Bad => Bad
  | Ok nb m1 => match t_fill nb 0 n s m1 with
                | Exc dst m2 => t_drop_new nb dst n r m2
                | Bad => Bad
                | Ok _ m2 => Ok (RV (Some nb) n) m2
                end
  end.
(* 223-238 init_from_range *)
Definition t_init_from_range (plain : bool) (r : rv) (n : nat) (ss : list src) (m : mem) : out rv :=
  match allocate nomem n m with
  | Exc _ m1 => Exc r m1
  | Bad => Bad
  | Ok nb m1 => match t_copy plain nb 0 ss m1 with
                | Exc dst m2 => t_drop_new nb dst n r m2
                | Bad => Bad
                | Ok _ m2 => Ok (RV (Some nb) n) m2
                end
  end.
(* 248-289; the boolean is the out-parameter valid *)
Definition t_raw_assign (r : rv) (old_size new_size : nat) (s : src) (m : mem) : out (rv * bool) :=
  if (new_size <=? cap r) && negb (cap r =? 0) then
    match ptr r with
    | None => Bad
    | Some ob =>
        andthen (t_destroy ob 0 old_size m) (fun m1 =>
          match t_fill ob 0 new_size s m1 with
          | Ok _ m2 => Ok (r, true) m2
          | Exc dst m2 => rethrow (t_destroy ob 0 dst m2) (r, false)
          | Bad => Bad
          end)
    end
  else
    let nc := increase half (cap r) new_size in
    match allocate nomem nc m with
    | Exc _ m1 => Exc (r, true) m1
    | Bad => Bad
    | Ok nb m1 =>
        match t_fill nb 0 new_size s m1 with
        | Exc dst m2 => t_drop_new nb dst nc (r, true) m2
        | Bad => Bad
        | Ok _ m2 => andthen (t_drop_old r old_size m2) (fun m3 => Ok (RV (Some nb) nc, true) m3)
        end
    end.
(* 292-339 *)
Definition t_raw_resize (r : rv) (old_size new_size : nat) (s : src) (m : mem) : out rv :=
  if new_size <? old_size then
    match ptr r with
    | None => Bad
    | Some ob => andthen (t_destroy ob new_size old_size m) (Ok r)
    end
  else if old_size <? new_size then
    if cap r <? new_size then
      let nc := increase half (cap r) new_size in
      match allocate nomem nc m with
      | Exc _ m1 => Exc r m1
      | Bad => Bad
      | Ok nb m1 =>
          match (match ptr r with Some ob => t_transfer ob 0 old_size nb 0 m1 | None => Ok 0 m1 end) with
          | Exc dst m2 => t_drop_new nb dst nc r m2
          | Bad => Bad
          | Ok dst m2 =>
              match t_fill nb dst new_size s m2 with
              | Exc dst' m3 => t_drop_new nb dst' nc r m3
              | Bad => Bad
              | Ok _ m3 => andthen (t_drop_old r old_size m3) (Ok (RV (Some nb) nc))
              end
          end
      end
    else
      match ptr r with
      | None => Bad
      | Some ob =>
          match t_fill ob old_size new_size s m with
          | Ok _ m1 => Ok r m1
          | Exc dst m1 => rethrow (t_destroy ob old_size dst m1) r
          | Bad => Bad
          end
      end
  else Ok r m.
(* move to a new block of nc cells; shared by prepare_push_back 341-365, reserve
   501-523 and shrink_to_fit 529-552, which have the same statements *)
Definition t_relocate (r : rv) (old_size nc : nat) (m : mem) : out rv :=
  match allocate nomem nc m with
  | Exc _ m1 => Exc r m1
  | Bad => Bad
  | Ok nb m1 =>
      match ptr r with
      | None => Ok (RV (Some nb) nc) m1
      | Some ob =>
          match t_transfer ob 0 old_size nb 0 m1 with
          | Exc dst m2 => t_drop_new nb dst nc r m2
          | Bad => Bad
          | Ok _ m2 => andthen (t_drop_old r old_size m2) (Ok (RV (Some nb) nc))
          end
      end
  end.
(* 341-365; the range returned is [old_size, new_size) of the new block *)
Definition t_prepare_push_back (r : rv) (old_size new_size : nat) (m : mem) : out rv :=
  if cap r <? new_size then t_relocate r old_size (increase half (cap r) new_size) m else Ok r m.
(* 370-461; second component: valid_count after an exception *)
Definition t_prepare_insert (r : rv) (old_size off count es : nat) (m : mem) : out (rv * nat) :=
  let ins := count * es in
  let new_size := old_size + ins in
  if cap r <? new_size then
    let nc := increase half (cap r) new_size in
    match allocate nomem nc m with
    | Exc _ m1 => Exc (r, 0) m1                        (* valid_count keeps its initial 0 (2031) *)
    | Bad => Bad
    | Ok nb m1 =>
        match ptr r with
        | None => Ok (RV (Some nb) nc, 0) m1
        | Some ob =>
            match t_transfer ob 0 off nb 0 m1 with
            | Exc dl m2 => t_drop_new nb dl nc (r, old_size / es) m2
            | Bad => Bad
            | Ok dl m2 =>
                match t_transfer ob off old_size nb (off + ins) m2 with
                | Exc dr m3 =>
                    andthen (t_destroy nb 0 dl m3) (fun m4 =>
                      rethrow (andthen (t_destroy nb (off + ins) dr m4) (t_deallocate nb nc)) (r, old_size / es))
                | Bad => Bad
                | Ok _ m3 => andthen (t_drop_old r old_size m3) (Ok (RV (Some nb) nc, 0))
                end
            end
        end
    end
  else
    match ptr r with
    | None => if Nat.eqb old_size 0 && Nat.eqb ins 0 then Ok (r, 0) m else Bad
    | Some ob =>
        let right := old_size - off in
        if right <=? ins then
          match t_transfer ob off old_size ob (off + ins) m with
          | Exc dst m1 => rethrow (t_destroy ob (off + ins) dst m1) (r, old_size / es)
          | Bad => Bad
          | Ok _ m1 => andthen (t_destroy ob off old_size m1) (Ok (r, 0))
          end
        else
          let tail := new_size - old_size in
          match t_transfer ob (old_size - tail) old_size ob (new_size - tail) m with
          | Exc dt m1 => rethrow (t_destroy ob (new_size - tail) dt m1) (r, old_size / es)
          | Bad => Bad
          | Ok dt m1 =>
              match t_transfer_right ob off (old_size - tail) old_size m1 with
              | Exc dst1 m2 =>
                  (* dst1 is one behind dst *)
                  let vc := pred dst1 / es in
                  andthen (t_destroy ob (vc * es) (pred dst1) m2) (fun m3 => rethrow (t_destroy ob dst1 dt m3) (r, vc))
              | Bad => Bad
              | Ok _ m2 => andthen (t_destroy ob off (off + ins) m2) (Ok (r, 0))
              end
          end
    end.
(* 466-495 *)
Definition t_raw_erase (r : rv) (old_size off count es : nat) (m : mem) : out (rv * nat) :=
  let era := count * es in
  if old_size <? era then Bad else
  let new_size := old_size - era in
  match ptr r with
  | None => Bad
  | Some ob =>
      match t_transfer_left ob (off + era) old_size off m with
      | Exc dst m1 =>
          let vc := dst / es in
          andthen (t_destroy ob (vc * es) dst m1) (fun m2 => rethrow (t_destroy ob (S dst) old_size m2) (r, vc))
      | Bad => Bad
      | Ok _ m1 => andthen (t_destroy ob new_size old_size m1) (Ok (r, 0))
      end
  end.
(* 501-523 *)
Definition t_raw_reserve (r : rv) (old_size nc : nat) (m : mem) : out rv :=
  if cap r <? nc then t_relocate r old_size nc m else Ok r m.
(* 529-552 *)
Definition t_raw_shrink (r : rv) (n : nat) (m : mem) : out rv :=
  match ptr r with
  | None => Ok r m
  | Some ob =>
      if Nat.eqb n (cap r) then Ok r m
      else if 0 <? n then t_relocate r n n m
      else andthen (t_drop_old r n m) (Ok (RV None n))
  end.

(* ---- the one-dimensional vector, 1978-3147 ---- *)
(* destroy_ 2059-2065 and clear 2806-2810 *)
Definition t_destroy_all (v : vec) (m : mem) : out unit :=
  if Nat.eqb (vsize v) 0 then Ok tt m
  else match ptr (vraw v) with Some b => t_destroy b 0 (vsize v) m | None => Bad end.
Definition t_clear (v : vec) (m : mem) : out vec := andthen (t_destroy_all v m) (Ok (Vec (vraw v) 0)).
(* ~vector_nd_impl 2356-2359 and ~raw_vector 143-148 *)
Definition t_free_raw (r : rv) (m : mem) : out unit :=
  match ptr r with Some b => t_deallocate b (cap r) m | None => Ok tt m end.
Definition t_destruct_vec (v : vec) (m : mem) : out unit := andthen (t_destroy_all v m) (t_free_raw (vraw v)).
(* 2907-2914, emplace_back 2932-2941: the value is a reference *)
Definition t_push_back (v : vec) (s : src) (m : mem) : out vec :=
  match t_prepare_push_back (vraw v) (vsize v) (S (vsize v)) m with
  | Exc r m1 => Exc (Vec r (vsize v)) m1
  | Bad => Bad
  | Ok r m1 =>
      match ptr r with
      | None => Bad
      | Some b => match t_construct b (vsize v) s m1 with
                  | Ok _ m2 => Ok (Vec r (S (vsize v))) m2
                  | Exc _ m2 => Exc (Vec r (vsize v)) m2
                  | Bad => Bad
                  end
      end
  end.
(* 2946-2953 *)
Definition t_pop_back (v : vec) (m : mem) : out vec :=
  match vsize v with
  | 0 => Exc v m
  | S n => match ptr (vraw v) with
           | None => Bad
           | Some b => andthen (t_destroy1 b n m) (Ok (Vec (vraw v) n))
           end
  end.
(* 2029-2040 prepare_insert_ *)
Definition t_prepare_insert_1 (v : vec) (off count : nat) (m : mem) : out vec :=
  match t_prepare_insert (vraw v) (vsize v) off count 1 m with
  | Ok (r, _) m1 => Ok (Vec r (vsize v)) m1
  | Exc (r, vc) m1 => Exc (Vec r vc) m1
  | Bad => Bad
  end.
(* what the three insert functions do after prepare_insert_: construct the new
   elements, on failure destroy the detached right part and keep what was
   constructed (2958-2978, 3028-3058, 3064-3091) *)
Definition t_insert_srcs (plain : bool) (v : vec) (off : nat) (ss : list src) (m : mem) : out vec :=
  match t_prepare_insert_1 v off (length ss) m with
  | Exc v1 m1 => Exc v1 m1
  | Bad => Bad
  | Ok v1 m1 =>
      match ptr (vraw v1) with
      | None => Bad
      | Some b =>
          match t_copy plain b off ss m1 with
          | Ok _ m2 => Ok (Vec (vraw v1) (vsize v1 + length ss)) m2
          | Exc dst m2 =>
              rethrow (t_destroy b (off + length ss) (vsize v1 + length ss) m2) (Vec (vraw v1) dst)
          | Bad => Bad
          end
      end
  end.
(* 2958-2978, and emplace 3005-3024 *)
Definition t_insert_one (v : vec) (off : nat) (s : src) (m : mem) : out vec :=
  if vsize v <? off then Bad else t_insert_srcs false v off [s] m.
(* 3028-3058 *)
Definition t_insert_count (v : vec) (off count : nat) (s : src) (m : mem) : out vec :=
  if vsize v <? off then Bad
  else if Nat.eqb count 0 then Ok v m else t_insert_srcs false v off (repeat s count) m.
(* 3064-3091 for a forward range *)
Definition t_insert_range (plain : bool) (v : vec) (off : nat) (ss : list src) (m : mem) : out vec :=
  if vsize v <? off then Bad
  else match ss with [] => Ok v m | _ => t_insert_srcs plain v off ss m end.
(* 2042-2057 erase_ *)
Definition t_erase_ (v : vec) (off count : nat) (m : mem) : out vec :=
  match t_raw_erase (vraw v) (vsize v) off count 1 m with
  | Ok (r, _) m1 => Ok (Vec r (vsize v - count)) m1
  | Exc (r, vc) m1 => Exc (Vec r vc) m1
  | Bad => Bad
  end.
(* 3105-3112 *)
Definition t_erase_one (v : vec) (off : nat) (m : mem) : out vec :=
  if vsize v <? off then Bad
  else if Nat.eqb (vsize v) 0 then Exc v m else t_erase_ v off 1 m.
(* 3117-3133: offsets of the two iterators *)
Definition t_erase_range (v : vec) (first last : nat) (m : mem) : out vec :=
  if (vsize v <? first) || (vsize v <? last) then Bad
  else if last <? first then Exc v m
  else if Nat.eqb first last then Ok v m
  else if vsize v <? last - first then Exc v m
  else t_erase_ v first (last - first) m.
(* 2834-2838; 2824-2828 constructs default values *)
Definition t_resize (v : vec) (n : nat) (s : src) (m : mem) : out vec :=
  match t_raw_resize (vraw v) (vsize v) n s m with
  | Ok r m1 => Ok (Vec r n) m1
  | Exc r m1 => Exc (Vec r (vsize v)) m1
  | Bad => Bad
  end.
(* 2380-2393 *)
Definition t_assign (v : vec) (n : nat) (s : src) (m : mem) : out vec :=
  match t_raw_assign (vraw v) (vsize v) n s m with
  | Ok (r, _) m1 => Ok (Vec r n) m1
  | Exc (r, valid) m1 => Exc (Vec r (if valid then vsize v else 0)) m1
  | Bad => Bad
  end.
(* 2798-2801 *)
Definition t_reserve (v : vec) (n : nat) (m : mem) : out vec :=
  match t_raw_reserve (vraw v) (vsize v) n m with
  | Ok r m1 => Ok (Vec r (vsize v)) m1
  | Exc r m1 => Exc (Vec r (vsize v)) m1
  | Bad => Bad
  end.
(* 2815-2818 *)
Definition t_shrink_to_fit (v : vec) (m : mem) : out vec :=
  match t_raw_shrink (vraw v) (vsize v) m with
  | Ok r m1 => Ok (Vec r (vsize v)) m1
  | Exc r m1 => Exc (Vec r (vsize v)) m1
  | Bad => Bad
  end.
(* 2233-2238: copy constructor, whose plain iterators are pointers; an exception
   leaves no object *)
Definition t_copy_construct (v : vec) (m : mem) : out vec :=
  match t_init_from_range true (RV None 0) (vsize v) (elems v) m with
  | Ok r m1 => Ok (Vec r (vsize v)) m1
  | Exc _ m1 => Exc vec0 m1
  | Bad => Bad
  end.
(* 2254-2259: this_type{other}.swap( *this), then the temporary dies *)
Definition t_copy_assign (v other : vec) (m : mem) : out vec :=
  match t_copy_construct other m with
  | Ok t m1 => andthen (t_destruct_vec v m1) (Ok t)
  | Exc _ m1 => Exc v m1
  | Bad => Bad
  end.
(* 2264-2273 and 121-138: gives the two vectors after v = std::move(other) *)
Definition t_move_assign (v other : vec) (m : mem) : out (vec * vec) :=
  andthen (t_destroy_all v m) (fun m1 => andthen (t_free_raw (vraw v) m1) (Ok (other, vec0))).

(* ---- programs, as in VecWorld ---- *)
Definition t_exec (op : vop) (vs : list vec) (m : mem) : out (list vec) :=
  match op with
  | MakeEmpty => Ok (vs ++ [vec0]) m
  | Make n a => with_src vs a (fun s => adding vs n (t_init_from_value (RV None 0) n s m))
  | MakeRange l => with_srcs vs l (fun ss => adding vs (length l) (t_init_from_range (ptrs (tick m)) (RV None 0) (length l) ss m))
  | MakeCopy j => match nth_error vs j with
                  | None => Bad
                  | Some v => match t_copy_construct v m with
                              | Ok t m' => Ok (vs ++ [t]) m'
                              | Exc _ m' => Exc vs m'
                              | Bad => Bad
                              end
                  end
  | MakeMove j => match nth_error vs j with None => Bad | Some v => Ok (upd vs j vec0 ++ [v]) m end
  | PushBack i a => with_src vs a (fun s => on vs i m (fun v => t_push_back v s))
  | PopBack i => on vs i m t_pop_back
  | InsertOne i off a => with_src vs a (fun s => on vs i m (fun v => t_insert_one v off s))
  | InsertCount i off n a => with_src vs a (fun s => on vs i m (fun v => t_insert_count v off n s))
  | InsertRange i off l => with_srcs vs l (fun ss => on vs i m (fun v => t_insert_range (ptrs (tick m)) v off ss))
  | EraseOne i off => on vs i m (fun v => t_erase_one v off)
  | EraseRange i a b => on vs i m (fun v => t_erase_range v a b)
  | Resize i n a => with_src vs a (fun s => on vs i m (fun v => t_resize v n s))
  | Assign i n a => with_src vs a (fun s => on vs i m (fun v => t_assign v n s))
  | Reserve i n => on vs i m (fun v => t_reserve v n)
  | Shrink i => on vs i m t_shrink_to_fit
  | Clear i => on vs i m t_clear
  | CopyAssign i j => match nth_error vs j with
                      | None => Bad
                      | Some w => on vs i m (fun v => t_copy_assign v w)
                      end
  | MoveAssign i j => match nth_error vs i, nth_error vs j with
                      | Some v, Some w => match t_move_assign v w m with
                                          | Ok (v', w') m' => Ok (upd (upd vs i v') j w') m'
                                          | _ => Bad
                                          end
                      | _, _ => Bad
                      end
  (* 2452-2457 *)
  | Swap i j => match nth_error vs i, nth_error vs j with
                | Some v, Some w => Ok (upd (upd vs i w) j v) m
                | _, _ => Bad
                end
  end.

(* the program catches every exception and goes on; the booleans tell which
   operations threw *)
Fixpoint t_run (ops : list vop) (vs : list vec) (m : mem) : option (list bool * list vec * mem) :=
  match ops with
  | [] => Some ([], vs, m)
  | op :: t =>
      match t_exec op vs m with
      | Bad => None
      | Ok vs' m' => match t_run t vs' m' with Some (fl, vs2, m2) => Some (false :: fl, vs2, m2) | None => None end
      | Exc vs' m' => match t_run t vs' m' with Some (fl, vs2, m2) => Some (true :: fl, vs2, m2) | None => None end
      end
  end.
(* all vectors leave their scope *)
Fixpoint t_destruct_all (vs : list vec) (m : mem) : out unit :=
  match vs with
  | [] => Ok tt m
  | v :: t => andthen (t_destruct_vec v m) (t_destruct_all t)
  end.
End Model.
