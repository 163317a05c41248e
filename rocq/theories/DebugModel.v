(* The one-dimensional vector in a debug build: the functions of VecModel with
   the YATO_REQUIRES and YATO_ASSERT of include/yato/vector_nd.h and
   include/yato/memory_utility.h at their places (include/yato/assertion.h
   100-106: a condition that does not hold stops the program).

   Simplifications, beside those of VecModel:
   - conditions that hold by the way the model is written are left out: a pointer
     into a block is not null, a vector under construction has no block (201,
     225), the length of a list is not negative (memory_utility.h 296-297), the
     null pointer of 253 is the outcome Bad of raw_assign;
   - a count is below max_size of the allocator (memory_utility.h 256) and below
     the largest ptrdiff_t (narrow_cast in 227 and 2027);
   - the condition that two ranges do not overlap subtracts pointers, which is
     defined in one block only; blocks are disjoint, so for two blocks it holds;
   - raw_offset_checked_ 2014-2028 throws in a debug build for an iterator that
     is not of the vector: legal programs have none, the outcome is Bad as in
     VecModel. *)
From Coq Require Import List Bool Arith.
From Verif Require Import VecModel VecWorld.
Import ListNotations.

Section Debug.
Context {V : Type}.
Variable fails nomem : nat -> bool.
Variable half : nat.
Notation mem := (@mem V).
Notation src := (@src V).
Notation out := (@out V).

(* stopped by an assertion, or what the function does *)
Inductive dout (A : Type) := Stop | Run (x : out A).
Arguments Stop {A}. Arguments Run {A}.

(* assertion.h 100: assert(Condition) *)
Definition requires {A} (c : bool) (x : dout A) : dout A := if c then x else Stop.
(* go on with the outcome of a part *)
Definition bind {A B} (x : dout A) (f : out A -> dout B) : dout B :=
  match x with Stop => Stop | Run o => f o end.
Definition dthen {A B} (x : dout A) (f : mem -> dout B) : dout B :=
  bind x (fun o => match o with Ok _ m => f m | _ => Run Bad end).
Definition drethrow {A B} (x : dout A) (b : B) : dout B :=
  bind x (fun o => Run (rethrow o b)).

(* ---- memory_utility.h ---- *)
(* 374-381; the condition of 378 *)
Definition ddestroy (b i j : nat) (m : mem) : dout unit := requires (i <=? j) (Run (destroy b i j m)).
(* 275-286; 279 *)
Definition dfill (b first last : nat) (s : src) (m : mem) : dout nat :=
  requires (first <=? last) (Run (fill fails b first last s m)).
(* 389-398; 394, 395 *)
Definition dtransfer (bs first last bd dst : nat) (m : mem) : dout nat :=
  requires (first <=? last)
    (requires (negb (bs =? bd) || (last <=? dst) || (dst + (last - first) <=? first))
       (Run (transfer fails bs first last bd dst m))).
(* 409-418; 414, 415 *)
Definition dtransfer_left (b first last dst : nat) (m : mem) : dout nat :=
  requires (first <=? last) (requires (dst <? first) (Run (transfer_left fails b first last dst m))).
(* 431-440; 436, 437; dst_last is pred dst1 *)
Definition dtransfer_right (b first last dst1 : nat) (m : mem) : dout nat :=
  requires (first <=? last) (requires (first <? pred dst1) (Run (transfer_right fails b first last dst1 m))).
(* 251-258; 255 *)
Definition dallocate (n : nat) (m : mem) : dout nat := requires (0 <? n) (Run (allocate nomem n m)).

(* ---- raw_vector ---- *)
(* 59-68; 61: what is computed from the new capacity comes after the condition *)
Definition dincrease {A} (old new : nat) (f : nat -> dout A) : dout A :=
  requires (old <? new) (f (increase half old new)).
Definition ddrop_old (r : rv) (old_size : nat) (m : mem) : dout unit :=
  match ptr r with
  | None => Run (Ok tt m)
  | Some ob => dthen (ddestroy ob 0 old_size m) (fun m' => Run (deallocate ob (cap r) m'))
  end.
Definition ddrop_new {A} (nb dst c : nat) (a : A) (m : mem) : dout A :=
  drethrow (dthen (ddestroy nb 0 dst m) (fun m' => Run (deallocate nb c m'))) a.
(* 199-217; 202 *)
Definition dinit_from_value (r : rv) (n : nat) (s : src) (m : mem) : dout rv :=
  requires (negb (n =? 0)) (bind (dallocate n m) (fun o => match o with
  | Exc _ m1 => Run (Exc r m1)
  | Bad => Run Bad
  | Ok nb m1 => bind (dfill nb 0 n s m1) (fun o => match o with
                | Exc dst m2 => ddrop_new nb dst n r m2
                | Bad => Run Bad
                | Ok _ m2 => Run (Ok (RV (Some nb) n) m2)
                end)
  end)).
(* 223-242; 226, 227 *)
Definition dinit_from_range (r : rv) (n : nat) (ss : list src) (m : mem) : dout rv :=
  requires (negb (n =? 0)) (requires (n =? length ss) (bind (dallocate n m) (fun o => match o with
  | Exc _ m1 => Run (Exc r m1)
  | Bad => Run Bad
  | Ok nb m1 => match copy fails nb 0 ss m1 with
                | Exc dst m2 => ddrop_new nb dst n r m2
                | Bad => Run Bad
                | Ok _ m2 => Run (Ok (RV (Some nb) n) m2)
                end
  end))).
(* 248-289 *)
Definition draw_assign (r : rv) (old_size new_size : nat) (s : src) (m : mem) : dout (rv * bool) :=
  if (new_size <=? cap r) && negb (cap r =? 0) then
    match ptr r with
    | None => Run Bad
    | Some ob =>
        dthen (ddestroy ob 0 old_size m) (fun m1 =>
          bind (dfill ob 0 new_size s m1) (fun o => match o with
          | Ok _ m2 => Run (Ok (r, true) m2)
          | Exc dst m2 => drethrow (ddestroy ob 0 dst m2) (r, false)
          | Bad => Run Bad
          end))
    end
  else
    dincrease (cap r) new_size (fun nc =>
    bind (dallocate nc m) (fun o => match o with
    | Exc _ m1 => Run (Exc (r, true) m1)
    | Bad => Run Bad
    | Ok nb m1 =>
        bind (dfill nb 0 new_size s m1) (fun o => match o with
        | Exc dst m2 => ddrop_new nb dst nc (r, true) m2
        | Bad => Run Bad
        | Ok _ m2 => dthen (ddrop_old r old_size m2) (fun m3 => Run (Ok (RV (Some nb) nc, true) m3))
        end)
    end)).
(* 292-339 *)
Definition draw_resize (r : rv) (old_size new_size : nat) (s : src) (m : mem) : dout rv :=
  if new_size <? old_size then
    match ptr r with
    | None => Run Bad
    | Some ob => dthen (ddestroy ob new_size old_size m) (fun m1 => Run (Ok r m1))
    end
  else if old_size <? new_size then
    if cap r <? new_size then
      dincrease (cap r) new_size (fun nc =>
      bind (dallocate nc m) (fun o => match o with
      | Exc _ m1 => Run (Exc r m1)
      | Bad => Run Bad
      | Ok nb m1 =>
          bind (match ptr r with Some ob => dtransfer ob 0 old_size nb 0 m1 | None => Run (Ok 0 m1) end) (fun o => match o with
          | Exc dst m2 => ddrop_new nb dst nc r m2
          | Bad => Run Bad
          | Ok dst m2 =>
              bind (dfill nb dst new_size s m2) (fun o => match o with
              | Exc dst' m3 => ddrop_new nb dst' nc r m3
              | Bad => Run Bad
              | Ok _ m3 => dthen (ddrop_old r old_size m3) (fun m4 => Run (Ok (RV (Some nb) nc) m4))
              end)
          end)
      end))
    else
      match ptr r with
      | None => Run Bad
      | Some ob =>
          bind (dfill ob old_size new_size s m) (fun o => match o with
          | Ok _ m1 => Run (Ok r m1)
          | Exc dst m1 => drethrow (ddestroy ob old_size dst m1) r
          | Bad => Run Bad
          end)
      end
  else Run (Ok r m).
(* the shared part of 341-365, 501-523 and 529-552 *)
Definition drelocate (r : rv) (old_size nc : nat) (m : mem) : dout rv :=
  bind (dallocate nc m) (fun o => match o with
  | Exc _ m1 => Run (Exc r m1)
  | Bad => Run Bad
  | Ok nb m1 =>
      match ptr r with
      | None => Run (Ok (RV (Some nb) nc) m1)
      | Some ob =>
          bind (dtransfer ob 0 old_size nb 0 m1) (fun o => match o with
          | Exc dst m2 => ddrop_new nb dst nc r m2
          | Bad => Run Bad
          | Ok _ m2 => dthen (ddrop_old r old_size m2) (fun m3 => Run (Ok (RV (Some nb) nc) m3))
          end)
      end
  end).
(* 341-365 *)
Definition dprepare_push_back (r : rv) (old_size new_size : nat) (m : mem) : dout rv :=
  if cap r <? new_size then dincrease (cap r) new_size (fun nc => drelocate r old_size nc m) else Run (Ok r m).
(* 370-461; 374, 444 *)
Definition dprepare_insert (r : rv) (old_size off count es : nat) (m : mem) : dout (rv * nat) :=
  let ins := count * es in
  let new_size := old_size + ins in
  requires (old_size <? new_size) (
  if cap r <? new_size then
    dincrease (cap r) new_size (fun nc =>
    bind (dallocate nc m) (fun o => match o with
    | Exc _ m1 => Run (Exc (r, 0) m1)
    | Bad => Run Bad
    | Ok nb m1 =>
        match ptr r with
        | None => Run (Ok (RV (Some nb) nc, 0) m1)
        | Some ob =>
            bind (dtransfer ob 0 off nb 0 m1) (fun o => match o with
            | Exc dl m2 => ddrop_new nb dl nc (r, old_size / es) m2
            | Bad => Run Bad
            | Ok dl m2 =>
                bind (dtransfer ob off old_size nb (off + ins) m2) (fun o => match o with
                | Exc dr m3 =>
                    dthen (ddestroy nb 0 dl m3) (fun m4 =>
                      drethrow (dthen (ddestroy nb (off + ins) dr m4) (fun m5 => Run (deallocate nb nc m5))) (r, old_size / es))
                | Bad => Run Bad
                | Ok _ m3 => dthen (ddrop_old r old_size m3) (fun m4 => Run (Ok (RV (Some nb) nc, 0) m4))
                end)
            end)
        end
    end))
  else
    match ptr r with
    | None => Run (if Nat.eqb old_size 0 && Nat.eqb ins 0 then Ok (r, 0) m else Bad)
    | Some ob =>
        let right := old_size - off in
        if right <=? ins then
          bind (dtransfer ob off old_size ob (off + ins) m) (fun o => match o with
          | Exc dst m1 => drethrow (ddestroy ob (off + ins) dst m1) (r, old_size / es)
          | Bad => Run Bad
          | Ok _ m1 => dthen (ddestroy ob off old_size m1) (fun m2 => Run (Ok (r, 0) m2))
          end)
        else
          let tail := new_size - old_size in
          bind (dtransfer ob (old_size - tail) old_size ob (new_size - tail) m) (fun o => match o with
          | Exc dt m1 => drethrow (ddestroy ob (new_size - tail) dt m1) (r, old_size / es)
          | Bad => Run Bad
          | Ok dt m1 =>
              requires (0 <? old_size) (bind (dtransfer_right ob off (old_size - tail) old_size m1) (fun o => match o with
              | Exc dst1 m2 =>
                  let vc := pred dst1 / es in
                  dthen (ddestroy ob (vc * es) (pred dst1) m2) (fun m3 => drethrow (ddestroy ob dst1 dt m3) (r, vc))
              | Bad => Run Bad
              | Ok _ m2 => dthen (ddestroy ob off (off + ins) m2) (fun m3 => Run (Ok (r, 0) m3))
              end))
          end)
    end).
(* 466-495; 468, 472 *)
Definition draw_erase (r : rv) (old_size off count es : nat) (m : mem) : dout (rv * nat) :=
  requires (negb (count =? 0)) (
  let era := count * es in
  requires (era <=? old_size) (
  let new_size := old_size - era in
  match ptr r with
  | None => Run Bad
  | Some ob =>
      bind (dtransfer_left ob (off + era) old_size off m) (fun o => match o with
      | Exc dst m1 =>
          let vc := dst / es in
          dthen (ddestroy ob (vc * es) dst m1) (fun m2 => drethrow (ddestroy ob (S dst) old_size m2) (r, vc))
      | Bad => Run Bad
      | Ok _ m1 => dthen (ddestroy ob new_size old_size m1) (fun m2 => Run (Ok (r, 0) m2))
      end)
  end)).
(* 501-523 *)
Definition draw_reserve (r : rv) (old_size nc : nat) (m : mem) : dout rv :=
  if cap r <? nc then drelocate r old_size nc m else Run (Ok r m).
(* 529-552 *)
Definition draw_shrink (r : rv) (n : nat) (m : mem) : dout rv :=
  match ptr r with
  | None => Run (Ok r m)
  | Some ob =>
      if Nat.eqb n (cap r) then Run (Ok r m)
      else if 0 <? n then drelocate r n n m
      else dthen (ddrop_old r n m) (fun m1 => Run (Ok (RV None n) m1))
  end.

(* ---- the one-dimensional vector ---- *)
(* 2059-2065, 2806-2810, 2356-2359 and 143-148 *)
Definition ddestroy_all (v : vec) (m : mem) : dout unit :=
  if Nat.eqb (vsize v) 0 then Run (Ok tt m)
  else match ptr (vraw v) with Some b => ddestroy b 0 (vsize v) m | None => Run Bad end.
Definition dclear (v : vec) (m : mem) : dout vec := dthen (ddestroy_all v m) (fun m1 => Run (Ok (Vec (vraw v) 0) m1)).
Definition ddestruct_vec (v : vec) (m : mem) : dout unit := dthen (ddestroy_all v m) (fun m1 => Run (free_raw (vraw v) m1)).
(* 2907-2914 *)
Definition dpush_back (v : vec) (s : src) (m : mem) : dout vec :=
  bind (dprepare_push_back (vraw v) (vsize v) (S (vsize v)) m) (fun o => match o with
  | Exc r m1 => Run (Exc (Vec r (vsize v)) m1)
  | Bad => Run Bad
  | Ok r m1 =>
      match ptr r with
      | None => Run Bad
      | Some b => Run (match construct fails b (vsize v) s m1 with
                       | Ok _ m2 => Ok (Vec r (S (vsize v))) m2
                       | Exc _ m2 => Exc (Vec r (vsize v)) m2
                       | Bad => Bad
                       end)
      end
  end).
(* 2029-2040 *)
Definition dprepare_insert_1 (v : vec) (off count : nat) (m : mem) : dout vec :=
  bind (dprepare_insert (vraw v) (vsize v) off count 1 m) (fun o => Run (match o with
  | Ok (r, _) m1 => Ok (Vec r (vsize v)) m1
  | Exc (r, vc) m1 => Exc (Vec r vc) m1
  | Bad => Bad
  end)).
(* 2958-2978, 3028-3058, 3064-3091 *)
Definition dinsert_srcs (v : vec) (off : nat) (ss : list src) (m : mem) : dout vec :=
  bind (dprepare_insert_1 v off (length ss) m) (fun o => match o with
  | Exc v1 m1 => Run (Exc v1 m1)
  | Bad => Run Bad
  | Ok v1 m1 =>
      match ptr (vraw v1) with
      | None => Run Bad
      | Some b =>
          match copy fails b off ss m1 with
          | Ok _ m2 => Run (Ok (Vec (vraw v1) (vsize v1 + length ss)) m2)
          | Exc dst m2 =>
              drethrow (ddestroy b (off + length ss) (vsize v1 + length ss) m2) (Vec (vraw v1) dst)
          | Bad => Run Bad
          end
      end
  end).
Definition dinsert_one (v : vec) (off : nat) (s : src) (m : mem) : dout vec :=
  if vsize v <? off then Run Bad else dinsert_srcs v off [s] m.
Definition dinsert_count (v : vec) (off count : nat) (s : src) (m : mem) : dout vec :=
  if vsize v <? off then Run Bad
  else if Nat.eqb count 0 then Run (Ok v m) else dinsert_srcs v off (repeat s count) m.
Definition dinsert_range (v : vec) (off : nat) (ss : list src) (m : mem) : dout vec :=
  if vsize v <? off then Run Bad
  else match ss with [] => Run (Ok v m) | _ => dinsert_srcs v off ss m end.
(* 2042-2057; 2044 *)
Definition derase_ (v : vec) (off count : nat) (m : mem) : dout vec :=
  requires (count <=? vsize v)
    (bind (draw_erase (vraw v) (vsize v) off count 1 m) (fun o => Run (match o with
     | Ok (r, _) m1 => Ok (Vec r (vsize v - count)) m1
     | Exc (r, vc) m1 => Exc (Vec r vc) m1
     | Bad => Bad
     end))).
(* 3105-3112 *)
Definition derase_one (v : vec) (off : nat) (m : mem) : dout vec :=
  if vsize v <? off then Run Bad
  else if Nat.eqb (vsize v) 0 then Run (Exc v m) else derase_ v off 1 m.
(* 3117-3133 *)
Definition derase_range (v : vec) (first last : nat) (m : mem) : dout vec :=
  if (vsize v <? first) || (vsize v <? last) then Run Bad
  else if last <? first then Run (Exc v m)
  else if Nat.eqb first last then Run (Ok v m)
  else if vsize v <? last - first then Run (Exc v m)
  else derase_ v first (last - first) m.
(* the results of the raw functions: 2834-2838, 2798-2801, 2815-2818 *)
Definition resized (v : vec) (n : nat) (x : dout rv) : dout vec :=
  bind x (fun o => Run (match o with
  | Ok r m1 => Ok (Vec r n) m1
  | Exc r m1 => Exc (Vec r (vsize v)) m1
  | Bad => Bad
  end)).
(* 2380-2393 *)
Definition dassign (v : vec) (n : nat) (s : src) (m : mem) : dout vec :=
  bind (draw_assign (vraw v) (vsize v) n s m) (fun o => Run (match o with
  | Ok (r, _) m1 => Ok (Vec r n) m1
  | Exc (r, valid) m1 => Exc (Vec r (if valid then vsize v else 0)) m1
  | Bad => Bad
  end)).
(* 2233-2238 *)
Definition dcopy_construct (v : vec) (m : mem) : dout vec :=
  bind (dinit_from_range (RV None 0) (vsize v) (elems v) m) (fun o => Run (match o with
  | Ok r m1 => Ok (Vec r (vsize v)) m1
  | Exc _ m1 => Exc vec0 m1
  | Bad => Bad
  end)).
(* 2254-2259; 2256 is in dexec *)
Definition dcopy_assign (v other : vec) (m : mem) : dout vec :=
  bind (dcopy_construct other m) (fun o => match o with
  | Ok t m1 => dthen (ddestruct_vec v m1) (fun m2 => Run (Ok t m2))
  | Exc _ m1 => Run (Exc v m1)
  | Bad => Run Bad
  end).
(* 2264-2273 and 121-138; 2266 and 124 are in dexec *)
Definition dmove_assign (v other : vec) (m : mem) : dout (vec * vec) :=
  dthen (ddestroy_all v m) (fun m1 => dthen (Run (free_raw (vraw v) m1)) (fun m2 => Run (Ok (other, vec0) m2))).

(* ---- programs, VecWorld ---- *)
Definition dwith_src (vs : list vec) (a : arg) (f : src -> dout (list vec)) : dout (list vec) :=
  match resolve vs a with Some s => f s | None => Run Bad end.
Definition dwith_srcs (vs : list vec) (l : list arg) (f : list src -> dout (list vec)) : dout (list vec) :=
  match resolve_all vs l with Some s => f s | None => Run Bad end.
Definition don (vs : list vec) (i : nat) (m : mem) (f : vec -> mem -> dout vec) : dout (list vec) :=
  match nth_error vs i with
  | None => Run Bad
  | Some v => bind (f v m) (fun o => Run (match o with
              | Ok v' m' => Ok (upd vs i v') m'
              | Exc v' m' => Exc (upd vs i v') m'
              | Bad => Bad
              end))
  end.
Definition dadding (vs : list vec) (n : nat) (x : dout rv) : dout (list vec) :=
  bind x (fun o => Run (adding vs n o)).
(* two variables of a program are the same object when their indices are equal:
   the condition this != &other of 2256 and 2266 *)
Definition dexec (op : vop) (vs : list vec) (m : mem) : dout (list vec) :=
  match op with
  | MakeEmpty => Run (Ok (vs ++ [vec0]) m)
  | Make n a => dwith_src vs a (fun s => dadding vs n (dinit_from_value (RV None 0) n s m))
  | MakeRange l => dwith_srcs vs l (fun ss => dadding vs (length l) (dinit_from_range (RV None 0) (length l) ss m))
  | MakeCopy j => match nth_error vs j with
                  | None => Run Bad
                  | Some v => bind (dcopy_construct v m) (fun o => Run (match o with
                              | Ok t m' => Ok (vs ++ [t]) m'
                              | Exc _ m' => Exc vs m'
                              | Bad => Bad
                              end))
                  end
  | MakeMove j => match nth_error vs j with None => Run Bad | Some v => Run (Ok (upd vs j vec0 ++ [v]) m) end
  | PushBack i a => dwith_src vs a (fun s => don vs i m (fun v => dpush_back v s))
  | PopBack i => don vs i m (fun v m => Run (pop_back v m))
  | InsertOne i off a => dwith_src vs a (fun s => don vs i m (fun v => dinsert_one v off s))
  | InsertCount i off n a => dwith_src vs a (fun s => don vs i m (fun v => dinsert_count v off n s))
  | InsertRange i off l => dwith_srcs vs l (fun ss => don vs i m (fun v => dinsert_range v off ss))
  | EraseOne i off => don vs i m (fun v => derase_one v off)
  | EraseRange i a b => don vs i m (fun v => derase_range v a b)
  | Resize i n a => dwith_src vs a (fun s => don vs i m (fun v m => resized v n (draw_resize (vraw v) (vsize v) n s m)))
  | Assign i n a => dwith_src vs a (fun s => don vs i m (fun v => dassign v n s))
  | Reserve i n => don vs i m (fun v m => resized v (vsize v) (draw_reserve (vraw v) (vsize v) n m))
  | Shrink i => don vs i m (fun v m => resized v (vsize v) (draw_shrink (vraw v) (vsize v) m))
  | Clear i => don vs i m dclear
  | CopyAssign i j => requires (negb (i =? j))
                        (match nth_error vs j with
                         | None => Run Bad
                         | Some w => don vs i m (fun v => dcopy_assign v w)
                         end)
  | MoveAssign i j => requires (negb (i =? j))
                        (match nth_error vs i, nth_error vs j with
                         | Some v, Some w => bind (dmove_assign v w m) (fun o => Run (match o with
                                             | Ok (v', w') m' => Ok (upd (upd vs i v') j w') m'
                                             | _ => Bad
                                             end))
                         | _, _ => Run Bad
                         end)
  | Swap i j => match nth_error vs i, nth_error vs j with
                | Some v, Some w => Run (Ok (upd (upd vs i w) j v) m)
                | _, _ => Run Bad
                end
  end.

(* a whole program: None when an assertion stopped it *)
Fixpoint drun (ops : list vop) (vs : list vec) (m : mem) : option (option (list bool * list vec * mem)) :=
  match ops with
  | [] => Some (Some ([], vs, m))
  | op :: t =>
      match dexec op vs m with
      | Stop => None
      | Run Bad => Some None
      | Run (Ok vs' m') => option_map (option_map (fun '(fl, vs2, m2) => (false :: fl, vs2, m2))) (drun t vs' m')
      | Run (Exc vs' m') => option_map (option_map (fun '(fl, vs2, m2) => (true :: fl, vs2, m2))) (drun t vs' m')
      end
  end.
(* the destructors at the end of the scope *)
Fixpoint ddestruct_all (vs : list vec) (m : mem) : dout unit :=
  match vs with
  | [] => Run (Ok tt m)
  | v :: t => dthen (ddestruct_vec v m) (ddestruct_all t)
  end.
End Debug.
Arguments Stop {V A}. Arguments Run {V A}.
