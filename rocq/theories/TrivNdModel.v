(* Model of include/yato/vector_nd.h, the multidimensional vector_nd_impl
   (555-1965), for elements of a trivial type: the functions of NdVecModel over
   raw_vector as modelled in TrivModel, with memcpy and memmove instead of
   constructors and destructors.  The simplifications of both apply.  Besides:
   - a sub-vector is copied by one call of copy_to_uninitialized, with memcpy when
     its elements are passed as pointers.  memory_utility.h 307-352 do so when the
     sub-vector is a plain range, and copy row after row otherwise: the result is
     the same when the sub-vector lies apart from the cells it is copied to, and so
     is the overlap when it is copied onto itself. *)
From Coq Require Import List Bool Arith.
From Verif Require Import VecModel VecWorld TrivModel NdVecModel.
Import ListNotations.

Section Model.
Context {V : Type}.
Variable nomem : nat -> bool.            (* allocation throws *)
Variable half : nat.                     (* numeric_limits<size_t>::max() / 2 *)
Variable ptrs : nat -> bool.             (* the sub-vector passed to the call at this time is a plain range *)
Notation mem := (@mem V).
Notation src := (@src V).
Notation out := (@out V).
Notation nop := (@nop V).

(* 908-930: vector(sizes, value) *)
Definition t_nmake (e : list nat) (s : src) (m : mem) : out nvec :=
  let v := NVec (RV None 0) (init_sizes e) in
  if Nat.eqb (total_size v) 0 then Ok v m
  else match t_init_from_value nomem (RV None 0) (total_size v) s m with
       | Ok r m1 => Ok (NVec r (init_sizes e)) m1
       | Exc r m1 => Exc (NVec r []) m1               (* no object *)
       | Bad => Bad
       end.

(* 1685-1733 push_back *)
Definition t_npush (plain : bool) (v : nvec) (sd : list nat) (ss : list src) (m : mem) : out nvec :=
  if negb (match_sub v sd) then Exc v m
  else
    let v1 := init_if_empty v sd in
    let old := total_size v1 in
    match t_prepare_push_back nomem half (nraw v1) old (old + product sd) m with
    | Exc r m1 => Exc (NVec r (descs v1)) m1
    | Bad => Bad
    | Ok r m1 =>
        match ptr r with
        | None => match ss with [] => Ok (set_top v1 r (top v1 + 1)) m1 | _ => Bad end   (* an empty range at null *)
        | Some b =>
            match t_copy plain b old ss m1 with
            | Ok _ m2 => Ok (set_top v1 r (top v1 + 1)) m2
            | Exc dst m2 => rethrow (t_destroy b old dst m2) (NVec r (descs v1))
            | Bad => Bad
            end
        end
    end.
(* 1740-1752 pop_back; top - 1 wraps on an empty vector *)
Definition t_npop (v : nvec) (m : mem) : out nvec :=
  if Nat.eqb (top v) 0 then Bad
  else
    let v1 := set_top v (nraw v) (top v - 1) in
    match ptr (nraw v) with
    | None => Bad
    | Some b => andthen (t_destroy b (total_size v1) (total_size v) m) (Ok v1)
    end.
(* 691-702 prepare_insert_ *)
Definition t_nprepare_insert (v : nvec) (off count es : nat) (m : mem) : out nvec :=
  match t_prepare_insert nomem half (nraw v) (total_size v) off count es m with
  | Ok (r, _) m1 => Ok (NVec r (descs v)) m1
  | Exc (r, vc) m1 => Exc (set_top v r vc) m1
  | Bad => Bad
  end.
(* the loop 1829-1839: copy_first, copy_last and inserted_count *)
Fixpoint t_copy_slices (plain : bool) (n b first : nat) (ss : list src) (k : nat) (m : mem) : out (nat * nat * nat) :=
  match n with
  | 0 => Ok (first, first, k) m
  | S n' => match t_copy plain b first ss m with
            | Ok d m' => t_copy_slices plain n' b d ss (S k) m'
            | Exc d m' => Exc (first, d, k) m'
            | Bad => Bad
            end
  end.
(* 1810-1857, and 1759-1803 with count 1; pos: the index of the sub-vector; the
   second component is the element the returned iterator points to *)
Definition t_ninsert (plain : bool) (v : nvec) (pos count : nat) (sd : list nat) (ss : list src) (m : mem) : out (nvec * nat) :=
  if top v <? pos then Bad
  else if Nat.eqb count 0 then Ok (v, pos * element_size v * element_size v) m    (* 1854-1855 *)
  else if negb (match_sub v sd) then Exc (v, 0) m
  else
    let off := pos * element_size v in
    let v1 := init_if_empty v sd in
    let es := product sd in
    if Nat.eqb es 0 then Exc (v1, 0) m
    else
      match t_nprepare_insert v1 off count es m with
      | Exc v2 m1 => Exc (v2, 0) m1
      | Bad => Bad
      | Ok v2 m1 =>
          match ptr (nraw v2) with
          | None => Bad
          | Some b =>
              match t_copy_slices plain count b off ss 0 m1 with
              | Ok _ m2 => Ok (set_top v2 (nraw v2) (top v2 + count), off) m2
              | Exc (first, last, k) m2 =>
                  andthen (t_destroy b first last m2) (fun m3 =>
                    rethrow (t_destroy b (off + count * es) (total_size v2 + count * es) m3)
                            (set_top v2 (nraw v2) (off / es + k), 0))
              | Bad => Bad
              end
          end
      end.
(* 1863-1909: a range of sub-vectors of extents sd *)
Definition t_ninsert_range (plain : bool) (v : nvec) (pos : nat) (sd : list nat) (sss : list (list src)) (m : mem) : out (nvec * nat) :=
  if top v <? pos then Bad
  else if Nat.eqb (length sss) 0 then Ok (v, pos * element_size v * element_size v) m   (* 1906-1907 *)
  else if negb (match_sub v sd) then Exc (v, 0) m
  else
    let off := pos * element_size v in
    let v1 := init_if_empty v sd in
    let es := product sd in
    if Nat.eqb es 0 then Exc (v1, 0) m
    else
      match t_nprepare_insert v1 off (length sss) es m with
      | Exc v2 m1 => Exc (v2, 0) m1
      | Bad => Bad
      | Ok v2 m1 =>
          match ptr (nraw v2) with
          | None => Bad
          | Some b =>
              match t_copy plain b off (concat sss) m1 with
              | Ok _ m2 => Ok (set_top v2 (nraw v2) (top v2 + length sss), off) m2
              | Exc dst m2 =>
                  let k := (dst - off) / es in
                  andthen (t_destroy b (off + k * es) dst m2) (fun m3 =>
                    rethrow (t_destroy b (off + length sss * es) (total_size v2 + length sss * es) m3)
                            (set_top v2 (nraw v2) (off / es + k), 0))
              | Bad => Bad
              end
          end
      end.
(* 704-720 erase_ *)
Definition t_nerase_ (v : nvec) (pos count es : nat) (m : mem) : out (nvec * nat) :=
  let off := pos * element_size v in
  match t_raw_erase (nraw v) (total_size v) off count es m with
  | Ok (r, _) m1 => Ok (set_top v r (top v - count), off) m1
  | Exc (r, vc) m1 => Exc (set_top v r vc, 0) m1
  | Bad => Bad
  end.
(* 1924-1930 *)
Definition t_nerase (v : nvec) (pos : nat) (m : mem) : out (nvec * nat) :=
  if top v <? pos then Bad
  else if Nat.eqb (top v) 0 then Exc (v, 0) m else t_nerase_ v pos 1 (element_size v) m.
(* 1935-1951; std::distance divides by the size of a sub-vector (iterator_nd.h
   174-180).  When last is before first the quotient is negative, or beyond any
   size (Nd, C14): both are rejected *)
Definition t_nerase_range (v : nvec) (first last : nat) (m : mem) : out (nvec * nat) :=
  if (top v <? first) || (top v <? last) || Nat.eqb (element_size v) 0 then Bad
  else if last <? first then Exc (v, 0) m
  else if Nat.eqb first last then Ok (v, first * element_size v * element_size v) m   (* 1948-1949 *)
  else if top v <? last - first then Exc (v, 0) m
  else t_nerase_ v first (last - first) (element_size v) m.
(* 1568-1588 resize(length, value) *)
Definition t_nresize (v : nvec) (n : nat) (s : src) (m : mem) : out nvec :=
  match t_raw_resize nomem half (nraw v) (total_size v) (n * element_size v) s m with
  | Ok r m1 => Ok (set_top v r n) m1
  | Exc r m1 => Exc (NVec r (descs v)) m1
  | Bad => Bad
  end.
(* 1597-1618 resize(extents, value) *)
Definition t_nresize_all (v : nvec) (e : list nat) (s : src) (m : mem) : out nvec :=
  match t_raw_resize nomem half (nraw v) (total_size v) (product e) s m with
  | Ok r m1 => Ok (NVec r (init_sizes e)) m1
  | Exc r m1 => Exc (NVec r (descs v)) m1
  | Bad => Bad
  end.
(* 1623-1626 clear: resize(0), nothing is constructed *)
Definition t_nclear (v : nvec) (m : mem) : out nvec :=
  if total_size v =? 0 then Ok (set_top v (nraw v) 0) m
  else match ptr (nraw v) with
       | None => Bad
       | Some b => andthen (t_destroy b 0 (total_size v) m) (Ok (set_top v (nraw v) 0))
       end.
(* 1139-1156 assign *)
Definition t_nassign (v : nvec) (e : list nat) (s : src) (m : mem) : out nvec :=
  match t_raw_assign nomem half (nraw v) (total_size v) (product e) s m with
  | Ok (r, _) m1 => Ok (NVec r (init_sizes e)) m1
  | Exc (r, valid) m1 => Exc (if valid then NVec r (descs v) else set_top v r 0) m1
  | Bad => Bad
  end.
(* 1548-1560 reserve, shrink_to_fit *)
Definition t_nreserve (v : nvec) (n : nat) (m : mem) : out nvec :=
  match t_raw_reserve nomem (nraw v) (total_size v) n m with
  | Ok r m1 => Ok (NVec r (descs v)) m1
  | Exc r m1 => Exc (NVec r (descs v)) m1
  | Bad => Bad
  end.
Definition t_nshrink (v : nvec) (m : mem) : out nvec :=
  match t_raw_shrink nomem (nraw v) (total_size v) m with
  | Ok r m1 => Ok (NVec r (descs v)) m1
  | Exc r m1 => Exc (NVec r (descs v)) m1
  | Bad => Bad
  end.
(* destroy_ 870-879, ~vector_nd_impl 1130-1133 and ~raw_vector 143-148 *)
Definition t_ndestruct (v : nvec) (m : mem) : out unit :=
  t_destruct_vec (Vec (nraw v) (total_size v)) m.
(* 1005-1013 copy constructor, 1045-1050 copy assignment of a copy of itself: the
   copy takes the place of the original, which dies *)
Definition t_ncopy (v : nvec) (m : mem) : out nvec :=
  if total_size v =? 0 then andthen (t_ndestruct v m) (Ok (NVec (RV None 0) (descs v)))
  else match t_copy_construct nomem (Vec (nraw v) (total_size v)) m with
       | Ok t m1 => andthen (t_ndestruct v m1) (Ok (NVec (vraw t) (descs v)))
       | Exc _ m1 => Exc v m1
       | Bad => Bad
       end.

Definition t_nexec (op : nop) (v : nvec) (m : mem) : out (nvec * option nat) :=
  match op with
  | NPush sd xs => plain (t_npush (ptrs (tick m)) v sd (map Ext xs) m)
  | NPop => plain (t_npop v m)
  | NInsert p n sd xs => iter (t_ninsert (ptrs (tick m)) v p n sd (map Ext xs) m)
  | NInsertRange p sd xss => iter (t_ninsert_range (ptrs (tick m)) v p sd (map (map Ext) xss) m)
  | NErase p => iter (t_nerase v p m)
  | NEraseRange a b => iter (t_nerase_range v a b m)
  | NResize n x => plain (t_nresize v n (Ext x) m)
  | NResizeAll e x => plain (t_nresize_all v e (Ext x) m)
  | NAssign e x => plain (t_nassign v e (Ext x) m)
  | NClear => plain (t_nclear v m)
  | NReserve n => plain (t_nreserve v n m)
  | NShrink => plain (t_nshrink v m)
  | NCopy => plain (t_ncopy v m)
  end.
(* exceptions are caught; the booleans tell which operations threw *)
Fixpoint t_nrun (ops : list nop) (v : nvec) (m : mem) : option (list bool * nvec * mem) :=
  match ops with
  | [] => Some ([], v, m)
  | op :: t =>
      match t_nexec op v m with
      | Bad => None
      | Ok (v', _) m' => match t_nrun t v' m' with Some (fl, v2, m2) => Some (false :: fl, v2, m2) | None => None end
      | Exc (v', _) m' => match t_nrun t v' m' with Some (fl, v2, m2) => Some (true :: fl, v2, m2) | None => None end
      end
  end.

(* v.push_back(v[k]) and v.insert(v.begin() + pos, count, v[k]): a slice of the
   vector itself is a plain range of pointers into its block (operator[] 1217-1229) *)
Definition own (v : nvec) (k : nat) : list src :=
  match ptr (nraw v) with Some b => map (Ref b) (seq (k * element_size v) (element_size v)) | None => [] end.
Definition t_npush_own (v : nvec) (k : nat) (m : mem) : out nvec :=
  t_npush true v (tl (extents v)) (own v k) m.
Definition t_ninsert_own (v : nvec) (pos count k : nat) (m : mem) : out (nvec * nat) :=
  t_ninsert true v pos count (tl (extents v)) (own v k) m.
End Model.
