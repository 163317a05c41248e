(* Model of include/yato/vector_nd.h, the multidimensional vector_nd_impl
   (555-1965), over raw_vector as modelled in VecModel.  The same memory model and
   the same simplifications apply (see there).  Besides:
   - an iterator of the vector is the index of the sub-vector it points to; its
     plain_cbegin() is that many sub-vectors after the beginning (create_proxy_
     758-776, operator[] 1217-1229, end 1294-1297);
   - a sub-vector passed to push_back / insert is its extents and the sources of
     its elements in row-major order, which is the order in which
     copy_to_uninitialized_multidim (memory_utility.h 307-352) visits them; the
     overloads that move the elements do the same with a move;
   - sizes are natural numbers. *)
From Coq Require Import List Bool Arith.
From Verif Require Import VecModel.
Import ListNotations.

Section Model.
Context {V : Type}.
Variable fails nomem : nat -> bool.
Variable half : nat.
Notation mem := (@mem V).
Notation src := (@src V).
Notation out := (@out V).

(* m_descriptors 604: size and total of every dimension; m_raw_vector 605 *)
Record nvec := NVec { nraw : rv; descs : list (nat * nat) }.
(* 1531-1534 *)
Definition total_size (v : nvec) : nat := match descs v with (_, t) :: _ => t | [] => 0 end.
(* get_top_dimension_ 865-868 *)
Definition top (v : nvec) : nat := match descs v with (n, _) :: _ => n | [] => 0 end.
(* get_element_size_ 853-857 *)
Definition element_size (v : nvec) : nat := match descs v with _ :: (_, t) :: _ => t | _ => 0 end.
Definition extents (v : nvec) : list nat := map fst (descs v).
(* dimensionality::total_size, utility of extents *)
Definition product (e : list nat) : nat := fold_right Nat.mul 1 e.
(* init_sizes_ 786-792: from the last dimension to the first *)
Fixpoint init_sizes (e : list nat) : list (nat * nat) :=
  match e with
  | [] => []
  | n :: r => match init_sizes r with
              | [] => [(n, n)]
              | (k, t) :: d => (n, n * t) :: (k, t) :: d
              end
  end.
(* init_subsizes_ 778-784 *)
Definition init_subsizes (d : list (nat * nat)) : list (nat * nat) := init_sizes (map fst d).
(* update_top_dimension_ 859-863 *)
Definition update_top (n : nat) (d : list (nat * nat)) : list (nat * nat) :=
  match d with _ :: (k, t) :: r => (n, t * n) :: (k, t) :: r | _ => d end.
(* match_sub_dimensions_ 664-675 *)
Definition eq_dims (a b : list nat) : bool := if list_eq_dec Nat.eq_dec a b then true else false.
Definition match_sub (v : nvec) (sd : list nat) : bool :=
  if Nat.eqb (length sd) (length (tl (descs v)))
  then Nat.eqb (total_size v) 0 || eq_dims sd (tl (extents v))
  else false.
(* init_dimensions_if_empty_ 678-689 *)
Definition init_if_empty (v : nvec) (sd : list nat) : nvec :=
  if Nat.eqb (total_size v) 0 then NVec (nraw v) (init_sizes (0 :: sd)) else v.
Definition set_top (v : nvec) (r : rv) (n : nat) : nvec := NVec r (update_top n (descs v)).

(* the default constructor for d dimensions 895 *)
Definition nempty (d : nat) : nvec := NVec (RV None 0) (repeat (0, 0) d).
(* 908-930: vector(sizes, value) *)
Definition nmake (e : list nat) (s : src) (m : mem) : out nvec :=
  let v := NVec (RV None 0) (init_sizes e) in
  if Nat.eqb (total_size v) 0 then Ok v m
  else match init_from_value fails nomem (RV None 0) (total_size v) s m with
       | Ok r m1 => Ok (NVec r (init_sizes e)) m1
       | Exc r m1 => Exc (NVec r []) m1               (* no object *)
       | Bad => Bad
       end.

(* 1685-1733 push_back *)
Definition npush (v : nvec) (sd : list nat) (ss : list src) (m : mem) : out nvec :=
  if negb (match_sub v sd) then Exc v m
  else
    let v1 := init_if_empty v sd in
    let old := total_size v1 in
    match prepare_push_back fails nomem half (nraw v1) old (old + product sd) m with
    | Exc r m1 => Exc (NVec r (descs v1)) m1
    | Bad => Bad
    | Ok r m1 =>
        match ptr r with
        | None => match ss with [] => Ok (set_top v1 r (top v1 + 1)) m1 | _ => Bad end   (* an empty range at null *)
        | Some b =>
            match copy fails b old ss m1 with
            | Ok _ m2 => Ok (set_top v1 r (top v1 + 1)) m2
            | Exc dst m2 => rethrow (destroy b old dst m2) (NVec r (descs v1))
            | Bad => Bad
            end
        end
    end.
(* 1740-1752 pop_back; top - 1 wraps on an empty vector *)
Definition npop (v : nvec) (m : mem) : out nvec :=
  if Nat.eqb (top v) 0 then Bad
  else
    let v1 := set_top v (nraw v) (top v - 1) in
    match ptr (nraw v) with
    | None => Bad
    | Some b => andthen (destroy b (total_size v1) (total_size v) m) (Ok v1)
    end.
(* 691-702 prepare_insert_ *)
Definition nprepare_insert (v : nvec) (off count es : nat) (m : mem) : out nvec :=
  match prepare_insert fails nomem half (nraw v) (total_size v) off count es m with
  | Ok (r, _) m1 => Ok (NVec r (descs v)) m1
  | Exc (r, vc) m1 => Exc (set_top v r vc) m1
  | Bad => Bad
  end.
(* the loop 1829-1839: copy_first, copy_last and inserted_count *)
Fixpoint copy_slices (n b first : nat) (ss : list src) (k : nat) (m : mem) : out (nat * nat * nat) :=
  match n with
  | 0 => Ok (first, first, k) m
  | S n' => match copy fails b first ss m with
            | Ok d m' => copy_slices n' b d ss (S k) m'
            | Exc d m' => Exc (first, d, k) m'
            | Bad => Bad
            end
  end.
(* 1810-1857, and 1759-1803 with count 1; pos: the index of the sub-vector; the
   second component is the element the returned iterator points to *)
Definition ninsert (v : nvec) (pos count : nat) (sd : list nat) (ss : list src) (m : mem) : out (nvec * nat) :=
  if top v <? pos then Bad
  else if Nat.eqb count 0 then Ok (v, pos * element_size v * element_size v) m    (* 1854-1855 *)
  else if negb (match_sub v sd) then Exc (v, 0) m
  else
    let off := pos * element_size v in
    let v1 := init_if_empty v sd in
    let es := product sd in
    if Nat.eqb es 0 then Exc (v1, 0) m
    else
      match nprepare_insert v1 off count es m with
      | Exc v2 m1 => Exc (v2, 0) m1
      | Bad => Bad
      | Ok v2 m1 =>
          match ptr (nraw v2) with
          | None => Bad
          | Some b =>
              match copy_slices count b off ss 0 m1 with
              | Ok _ m2 => Ok (set_top v2 (nraw v2) (top v2 + count), off) m2
              | Exc (first, last, k) m2 =>
                  andthen (destroy b first last m2) (fun m3 =>
                    rethrow (destroy b (off + count * es) (total_size v2 + count * es) m3)
                            (set_top v2 (nraw v2) (off / es + k), 0))
              | Bad => Bad
              end
          end
      end.
(* 1863-1909: a range of sub-vectors of extents sd *)
Definition ninsert_range (v : nvec) (pos : nat) (sd : list nat) (sss : list (list src)) (m : mem) : out (nvec * nat) :=
  if top v <? pos then Bad
  else if Nat.eqb (length sss) 0 then Ok (v, pos * element_size v * element_size v) m   (* 1906-1907 *)
  else if negb (match_sub v sd) then Exc (v, 0) m
  else
    let off := pos * element_size v in
    let v1 := init_if_empty v sd in
    let es := product sd in
    if Nat.eqb es 0 then Exc (v1, 0) m
    else
      match nprepare_insert v1 off (length sss) es m with
      | Exc v2 m1 => Exc (v2, 0) m1
      | Bad => Bad
      | Ok v2 m1 =>
          match ptr (nraw v2) with
          | None => Bad
          | Some b =>
              match copy fails b off (concat sss) m1 with
              | Ok _ m2 => Ok (set_top v2 (nraw v2) (top v2 + length sss), off) m2
              | Exc dst m2 =>
                  let k := (dst - off) / es in
                  andthen (destroy b (off + k * es) dst m2) (fun m3 =>
                    rethrow (destroy b (off + length sss * es) (total_size v2 + length sss * es) m3)
                            (set_top v2 (nraw v2) (off / es + k), 0))
              | Bad => Bad
              end
          end
      end.
(* 704-720 erase_ *)
Definition nerase_ (v : nvec) (pos count es : nat) (m : mem) : out (nvec * nat) :=
  let off := pos * element_size v in
  match raw_erase fails (nraw v) (total_size v) off count es m with
  | Ok (r, _) m1 => Ok (set_top v r (top v - count), off) m1
  | Exc (r, vc) m1 => Exc (set_top v r vc, 0) m1
  | Bad => Bad
  end.
(* 1924-1930 *)
Definition nerase (v : nvec) (pos : nat) (m : mem) : out (nvec * nat) :=
  if top v <? pos then Bad
  else if Nat.eqb (top v) 0 then Exc (v, 0) m else nerase_ v pos 1 (element_size v) m.
(* 1935-1951; std::distance divides by the size of a sub-vector (iterator_nd.h
   174-180).  When last is before first the quotient is negative, or beyond any
   size (Nd, C14): both are rejected *)
Definition nerase_range (v : nvec) (first last : nat) (m : mem) : out (nvec * nat) :=
  if (top v <? first) || (top v <? last) || Nat.eqb (element_size v) 0 then Bad
  else if last <? first then Exc (v, 0) m
  else if Nat.eqb first last then Ok (v, first * element_size v * element_size v) m   (* 1948-1949 *)
  else if top v <? last - first then Exc (v, 0) m
  else nerase_ v first (last - first) (element_size v) m.
(* 1568-1588 resize(length, value) *)
Definition nresize (v : nvec) (n : nat) (s : src) (m : mem) : out nvec :=
  match raw_resize fails nomem half (nraw v) (total_size v) (n * element_size v) s m with
  | Ok r m1 => Ok (set_top v r n) m1
  | Exc r m1 => Exc (NVec r (descs v)) m1
  | Bad => Bad
  end.
(* 1597-1618 resize(extents, value) *)
Definition nresize_all (v : nvec) (e : list nat) (s : src) (m : mem) : out nvec :=
  match raw_resize fails nomem half (nraw v) (total_size v) (product e) s m with
  | Ok r m1 => Ok (NVec r (init_sizes e)) m1
  | Exc r m1 => Exc (NVec r (descs v)) m1
  | Bad => Bad
  end.
(* 1623-1626 clear: resize(0), nothing is constructed *)
Definition nclear (v : nvec) (m : mem) : out nvec :=
  if total_size v =? 0 then Ok (set_top v (nraw v) 0) m
  else match ptr (nraw v) with
       | None => Bad
       | Some b => andthen (destroy b 0 (total_size v) m) (Ok (set_top v (nraw v) 0))
       end.
(* 1139-1156 assign *)
Definition nassign (v : nvec) (e : list nat) (s : src) (m : mem) : out nvec :=
  match raw_assign fails nomem half (nraw v) (total_size v) (product e) s m with
  | Ok (r, _) m1 => Ok (NVec r (init_sizes e)) m1
  | Exc (r, valid) m1 => Exc (if valid then NVec r (descs v) else set_top v r 0) m1
  | Bad => Bad
  end.
(* 1548-1560 reserve, shrink_to_fit *)
Definition nreserve (v : nvec) (n : nat) (m : mem) : out nvec :=
  match raw_reserve fails nomem (nraw v) (total_size v) n m with
  | Ok r m1 => Ok (NVec r (descs v)) m1
  | Exc r m1 => Exc (NVec r (descs v)) m1
  | Bad => Bad
  end.
Definition nshrink (v : nvec) (m : mem) : out nvec :=
  match raw_shrink fails nomem (nraw v) (total_size v) m with
  | Ok r m1 => Ok (NVec r (descs v)) m1
  | Exc r m1 => Exc (NVec r (descs v)) m1
  | Bad => Bad
  end.
(* destroy_ 870-879, ~vector_nd_impl 1130-1133 and ~raw_vector 143-148 *)
Definition ndestruct (v : nvec) (m : mem) : out unit :=
  destruct_vec (Vec (nraw v) (total_size v)) m.
(* 1005-1013 copy constructor, 1045-1050 copy assignment of a copy of itself: the
   copy takes the place of the original, which dies *)
Definition ncopy (v : nvec) (m : mem) : out nvec :=
  if total_size v =? 0 then andthen (ndestruct v m) (Ok (NVec (RV None 0) (descs v)))
  else match copy_construct fails nomem (Vec (nraw v) (total_size v)) m with
       | Ok t m1 => andthen (ndestruct v m1) (Ok (NVec (vraw t) (descs v)))
       | Exc _ m1 => Exc v m1
       | Bad => Bad
       end.

(* a program that uses one vector, with sub-vectors and values of its own *)
Inductive nop :=
  | NPush (sd : list nat) (xs : list V) | NPop
  | NInsert (pos count : nat) (sd : list nat) (xs : list V)
  | NInsertRange (pos : nat) (sd : list nat) (xss : list (list V))
  | NErase (pos : nat) | NEraseRange (first last : nat)
  | NResize (n : nat) (x : V) | NResizeAll (e : list nat) (x : V) | NAssign (e : list nat) (x : V)
  | NClear | NReserve (n : nat) | NShrink | NCopy.

(* the iterator is kept only where one is returned *)
Definition plain (x : out nvec) : out (nvec * option nat) :=
  match x with Ok v m => Ok (v, None) m | Exc v m => Exc (v, None) m | Bad => Bad end.
Definition iter (x : out (nvec * nat)) : out (nvec * option nat) :=
  match x with Ok (v, k) m => Ok (v, Some k) m | Exc (v, _) m => Exc (v, None) m | Bad => Bad end.
Definition nexec (op : nop) (v : nvec) (m : mem) : out (nvec * option nat) :=
  match op with
  | NPush sd xs => plain (npush v sd (map Ext xs) m)
  | NPop => plain (npop v m)
  | NInsert p n sd xs => iter (ninsert v p n sd (map Ext xs) m)
  | NInsertRange p sd xss => iter (ninsert_range v p sd (map (map Ext) xss) m)
  | NErase p => iter (nerase v p m)
  | NEraseRange a b => iter (nerase_range v a b m)
  | NResize n x => plain (nresize v n (Ext x) m)
  | NResizeAll e x => plain (nresize_all v e (Ext x) m)
  | NAssign e x => plain (nassign v e (Ext x) m)
  | NClear => plain (nclear v m)
  | NReserve n => plain (nreserve v n m)
  | NShrink => plain (nshrink v m)
  | NCopy => plain (ncopy v m)
  end.
(* exceptions are caught; the booleans tell which operations threw *)
Fixpoint nrun (ops : list nop) (v : nvec) (m : mem) : option (list bool * nvec * mem) :=
  match ops with
  | [] => Some ([], v, m)
  | op :: t =>
      match nexec op v m with
      | Bad => None
      | Ok (v', _) m' => match nrun t v' m' with Some (fl, v2, m2) => Some (false :: fl, v2, m2) | None => None end
      | Exc (v', _) m' => match nrun t v' m' with Some (fl, v2, m2) => Some (true :: fl, v2, m2) | None => None end
      end
  end.
End Model.
