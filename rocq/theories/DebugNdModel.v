(* The N-dimensional vector in a debug build: the functions of NdVecModel with the
   assertions of include/yato/vector_nd.h 555-1965 and memory_utility.h.  The
   simplifications of NdVecModel and DebugModel apply.  Positions are of the
   vector, so the checks of raw_offset_checked_ 652-659 hold; an index that is not
   has the outcome Bad as in NdVecModel. *)
From Coq Require Import List Bool Arith.
From Verif Require Import VecModel NdVecModel DebugModel.
Import ListNotations.

Section Debug.
Context {V : Type}.
Variable fails nomem : nat -> bool.
Variable half : nat.
Notation mem := (@mem V).
Notation src := (@src V).
Notation out := (@out V).
Notation dout := (@dout V).

(* what is done with the outcome of a part asserts nothing *)
Definition finish {A B} (x : dout A) (f : out A -> out B) : dout B := bind x (fun o => Run (f o)).

(* 921-930 vector(sizes, value) *)
Definition dnmake (e : list nat) (s : src) (m : mem) : dout nvec :=
  let v := NVec (RV None 0) (init_sizes e) in
  if Nat.eqb (total_size v) 0 then Run (Ok v m)
  else finish (dinit_from_value fails nomem (RV None 0) (total_size v) s m) (fun o => match o with
       | Ok r m1 => Ok (NVec r (init_sizes e)) m1
       | Exc r m1 => Exc (NVec r []) m1
       | Bad => Bad
       end).
(* 1685-1733 push_back; memory_utility.h 296, 315, 336, 364: the destination of a
   copy is not null *)
Definition dnpush (v : nvec) (sd : list nat) (ss : list src) (m : mem) : dout nvec :=
  if negb (match_sub v sd) then Run (Exc v m)
  else
    let v1 := init_if_empty v sd in
    let old := total_size v1 in
    bind (dprepare_push_back fails nomem half (nraw v1) old (old + product sd) m) (fun o => match o with
    | Exc r m1 => Run (Exc (NVec r (descs v1)) m1)
    | Bad => Run Bad
    | Ok r m1 =>
        match ptr r with
        | None => Stop
        | Some b =>
            match copy fails b old ss m1 with
            | Ok _ m2 => Run (Ok (set_top v1 r (top v1 + 1)) m2)
            | Exc dst m2 => drethrow (ddestroy b old dst m2) (NVec r (descs v1))
            | Bad => Run Bad
            end
        end
    end).
(* 1740-1752 pop_back: 1742-1746 throws when the vector is empty *)
Definition dnpop (v : nvec) (m : mem) : dout nvec :=
  if Nat.eqb (top v) 0 then Run (Exc v m)
  else
    let v1 := set_top v (nraw v) (top v - 1) in
    match ptr (nraw v) with
    | None => Run Bad
    | Some b => dthen (ddestroy b (total_size v1) (total_size v) m) (fun m1 => Run (Ok v1 m1))
    end.
(* 691-702 *)
Definition dnprepare_insert (v : nvec) (off count es : nat) (m : mem) : dout nvec :=
  finish (dprepare_insert fails nomem half (nraw v) (total_size v) off count es m) (fun o => match o with
  | Ok (r, _) m1 => Ok (NVec r (descs v)) m1
  | Exc (r, vc) m1 => Exc (set_top v r vc) m1
  | Bad => Bad
  end).
(* 1810-1857 *)
Definition dninsert (v : nvec) (pos count : nat) (sd : list nat) (ss : list src) (m : mem) : dout (nvec * nat) :=
  if top v <? pos then Run Bad
  else if Nat.eqb count 0 then Run (Ok (v, pos * element_size v * element_size v) m)
  else if negb (match_sub v sd) then Run (Exc (v, 0) m)
  else
    let off := pos * element_size v in
    let v1 := init_if_empty v sd in
    let es := product sd in
    if Nat.eqb es 0 then Run (Exc (v1, 0) m)
    else
      bind (dnprepare_insert v1 off count es m) (fun o => match o with
      | Exc v2 m1 => Run (Exc (v2, 0) m1)
      | Bad => Run Bad
      | Ok v2 m1 =>
          match ptr (nraw v2) with
          | None => Stop
          | Some b =>
              match copy_slices fails count b off ss 0 m1 with
              | Ok _ m2 => Run (Ok (set_top v2 (nraw v2) (top v2 + count), off) m2)
              | Exc (first, last, k) m2 =>
                  dthen (ddestroy b first last m2) (fun m3 =>
                    drethrow (ddestroy b (off + count * es) (total_size v2 + count * es) m3)
                             (set_top v2 (nraw v2) (off / es + k), 0))
              | Bad => Run Bad
              end
          end
      end).
(* 1863-1909 *)
Definition dninsert_range (v : nvec) (pos : nat) (sd : list nat) (sss : list (list src)) (m : mem) : dout (nvec * nat) :=
  if top v <? pos then Run Bad
  else if Nat.eqb (length sss) 0 then Run (Ok (v, pos * element_size v * element_size v) m)
  else if negb (match_sub v sd) then Run (Exc (v, 0) m)
  else
    let off := pos * element_size v in
    let v1 := init_if_empty v sd in
    let es := product sd in
    if Nat.eqb es 0 then Run (Exc (v1, 0) m)
    else
      bind (dnprepare_insert v1 off (length sss) es m) (fun o => match o with
      | Exc v2 m1 => Run (Exc (v2, 0) m1)
      | Bad => Run Bad
      | Ok v2 m1 =>
          match ptr (nraw v2) with
          | None => Stop
          | Some b =>
              match copy fails b off (concat sss) m1 with
              | Ok _ m2 => Run (Ok (set_top v2 (nraw v2) (top v2 + length sss), off) m2)
              | Exc dst m2 =>
                  let k := (dst - off) / es in
                  dthen (ddestroy b (off + k * es) dst m2) (fun m3 =>
                    drethrow (ddestroy b (off + length sss * es) (total_size v2 + length sss * es) m3)
                             (set_top v2 (nraw v2) (off / es + k), 0))
              | Bad => Run Bad
              end
          end
      end).
(* 704-720 *)
Definition dnerase_ (v : nvec) (pos count es : nat) (m : mem) : dout (nvec * nat) :=
  let off := pos * element_size v in
  finish (draw_erase fails (nraw v) (total_size v) off count es m) (fun o => match o with
  | Ok (r, _) m1 => Ok (set_top v r (top v - count), off) m1
  | Exc (r, vc) m1 => Exc (set_top v r vc, 0) m1
  | Bad => Bad
  end).
(* 1924-1930 *)
Definition dnerase (v : nvec) (pos : nat) (m : mem) : dout (nvec * nat) :=
  if top v <? pos then Run Bad
  else if Nat.eqb (top v) 0 then Run (Exc (v, 0) m) else dnerase_ v pos 1 (element_size v) m.
(* 1935-1951 *)
Definition dnerase_range (v : nvec) (first last : nat) (m : mem) : dout (nvec * nat) :=
  if (top v <? first) || (top v <? last) || Nat.eqb (element_size v) 0 then Run Bad
  else if last <? first then Run (Exc (v, 0) m)
  else if Nat.eqb first last then Run (Ok (v, first * element_size v * element_size v) m)
  else if top v <? last - first then Run (Exc (v, 0) m)
  else dnerase_ v first (last - first) (element_size v) m.
(* 1568-1588, 1597-1618 *)
Definition dnresize (v : nvec) (n : nat) (s : src) (m : mem) : dout nvec :=
  finish (draw_resize fails nomem half (nraw v) (total_size v) (n * element_size v) s m) (fun o => match o with
  | Ok r m1 => Ok (set_top v r n) m1
  | Exc r m1 => Exc (NVec r (descs v)) m1
  | Bad => Bad
  end).
Definition dnresize_all (v : nvec) (e : list nat) (s : src) (m : mem) : dout nvec :=
  finish (draw_resize fails nomem half (nraw v) (total_size v) (product e) s m) (fun o => match o with
  | Ok r m1 => Ok (NVec r (init_sizes e)) m1
  | Exc r m1 => Exc (NVec r (descs v)) m1
  | Bad => Bad
  end).
(* 1623-1626 *)
Definition dnclear (v : nvec) (m : mem) : dout nvec :=
  if total_size v =? 0 then Run (Ok (set_top v (nraw v) 0) m)
  else match ptr (nraw v) with
       | None => Run Bad
       | Some b => dthen (ddestroy b 0 (total_size v) m) (fun m1 => Run (Ok (set_top v (nraw v) 0) m1))
       end.
(* 1139-1156 *)
Definition dnassign (v : nvec) (e : list nat) (s : src) (m : mem) : dout nvec :=
  finish (draw_assign fails nomem half (nraw v) (total_size v) (product e) s m) (fun o => match o with
  | Ok (r, _) m1 => Ok (NVec r (init_sizes e)) m1
  | Exc (r, valid) m1 => Exc (if valid then NVec r (descs v) else set_top v r 0) m1
  | Bad => Bad
  end).
(* 1548-1560 *)
Definition keep_descs (v : nvec) (o : out rv) : out nvec :=
  match o with
  | Ok r m1 => Ok (NVec r (descs v)) m1
  | Exc r m1 => Exc (NVec r (descs v)) m1
  | Bad => Bad
  end.
Definition dnreserve (v : nvec) (n : nat) (m : mem) : dout nvec :=
  finish (draw_reserve fails nomem (nraw v) (total_size v) n m) (keep_descs v).
Definition dnshrink (v : nvec) (m : mem) : dout nvec :=
  finish (draw_shrink fails nomem (nraw v) (total_size v) m) (keep_descs v).
(* 870-879, 1130-1133, 143-148 *)
Definition dndestruct (v : nvec) (m : mem) : dout unit := ddestruct_vec (Vec (nraw v) (total_size v)) m.
(* 1005-1013: a copy that takes the place of the original by swap *)
Definition dncopy (v : nvec) (m : mem) : dout nvec :=
  if total_size v =? 0 then dthen (dndestruct v m) (fun m1 => Run (Ok (NVec (RV None 0) (descs v)) m1))
  else bind (dcopy_construct fails nomem (Vec (nraw v) (total_size v)) m) (fun o => match o with
       | Ok t m1 => dthen (dndestruct v m1) (fun m2 => Run (Ok (NVec (vraw t) (descs v)) m2))
       | Exc _ m1 => Run (Exc v m1)
       | Bad => Run Bad
       end).

Definition dnexec (op : nop) (v : nvec) (m : mem) : dout (nvec * option nat) :=
  match op with
  | NPush sd xs => finish (dnpush v sd (map Ext xs) m) plain
  | NPop => finish (dnpop v m) plain
  | NInsert p n sd xs => finish (dninsert v p n sd (map Ext xs) m) iter
  | NInsertRange p sd xss => finish (dninsert_range v p sd (map (map Ext) xss) m) iter
  | NErase p => finish (dnerase v p m) iter
  | NEraseRange a b => finish (dnerase_range v a b m) iter
  | NResize n x => finish (dnresize v n (Ext x) m) plain
  | NResizeAll e x => finish (dnresize_all v e (Ext x) m) plain
  | NAssign e x => finish (dnassign v e (Ext x) m) plain
  | NClear => finish (dnclear v m) plain
  | NReserve n => finish (dnreserve v n m) plain
  | NShrink => finish (dnshrink v m) plain
  | NCopy => finish (dncopy v m) plain
  end.
(* None: stopped; Some None: undefined *)
Fixpoint dnrun (ops : list nop) (v : nvec) (m : mem) : option (option (list bool * nvec * mem)) :=
  match ops with
  | [] => Some (Some ([], v, m))
  | op :: t =>
      match dnexec op v m with
      | Stop => None
      | Run Bad => Some None
      | Run (Ok (v', _) m') => option_map (option_map (fun '(fl, v2, m2) => (false :: fl, v2, m2))) (dnrun t v' m')
      | Run (Exc (v', _) m') => option_map (option_map (fun '(fl, v2, m2) => (true :: fl, v2, m2))) (dnrun t v' m')
      end
  end.
End Debug.
