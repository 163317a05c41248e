(* Model of yato::token_iterator, /repo/include/yato/token_iterator.h.
   An underlying iterator is modelled by the list of elements from it up to
   m_end, so m_end is [] and two iterators of one sequence are equal iff the
   lists have the same length.  The predicate object is a boolean function.
   The do/while of next_token_ carries fuel; running out of fuel is None. *)
From Coq Require Import List Bool Arith.
Import ListNotations.

Section Token.
Variable A : Type.
Variable sep : A -> bool.               (* *m_predicate *)

(* token_iterator.h:100-102  (m_end and m_predicate are fixed) *)
Record tok := Tok { tbegin : list A; tend : list A; skip_empty : bool }.

(* iterator comparison, and the range [b, e) *)
Definition it_eqb (a b : list A) : bool := length a =? length b.
Definition range_of (b e : list A) : list A := firstn (length b - length e) b.

(* token_iterator.h:104-112 *)
Fixpoint move_iterator (it : list A) : list A :=
  match it with
  | [] => []
  | c :: t => if sep c then it else move_iterator t
  end.

(* token_iterator.h:123-136 *)
Fixpoint next_token (fuel : nat) (t : tok) : option tok :=
  match fuel with
  | 0 => None
  | S fuel' =>
      match tend t with
      | _ :: rest =>                                     (* 126-129 *)
          let t' := Tok rest (move_iterator rest) (skip_empty t) in
          if skip_empty t && it_eqb (tbegin t') (tend t')
          then next_token fuel' t' else Some t'          (* 135 *)
      | [] => Some (Tok [] (tend t) (skip_empty t))      (* 132-133 *)
      end
  end.

(* token_iterator.h:114-121 and the constructor 139-144 *)
Definition make (fuel : nat) (s : list A) (skip : bool) : option tok :=
  let t := Tok s (move_iterator s) skip in
  if skip && it_eqb (tbegin t) (tend t) then next_token fuel t else Some t.

(* token_iterator.h:161-164, 171-174, 176-182 *)
Definition has_next (t : tok) : bool := negb (it_eqb (tbegin t) []).
Definition peek (t : tok) : list A := range_of (tbegin t) (tend t).
Definition next (fuel : nat) (t : tok) : option (list A * tok) :=
  match next_token fuel t with
  | None => None
  | Some t' => Some (peek t, t')
  end.

(* the client loop  while(it.has_next()) out.push_back(it.next()); *)
Fixpoint collect (fuel inner : nat) (t : tok) : option (list (list A)) :=
  match fuel with
  | 0 => None
  | S fuel' =>
      if has_next t then
        match next inner t with
        | None => None
        | Some (r, t') => match collect fuel' inner t' with
                          | None => None
                          | Some l => Some (r :: l)
                          end
        end
      else Some []
  end.
Definition tokens (s : list A) (skip : bool) : option (list (list A)) :=
  match make (S (length s)) s skip with
  | None => None
  | Some t => collect (S (S (length s))) (S (length s)) t
  end.

(* n calls of next() in a row, whatever has_next() says *)
Fixpoint steps (n fuel : nat) (t : tok) : option tok :=
  match n with
  | 0 => Some t
  | S n' => match next fuel t with
            | None => None
            | Some (_, t') => steps n' fuel t'
            end
  end.

(* ---- specification ---- *)
(* all maximal separator-free segments, empty ones included *)
Fixpoint split (s : list A) : list (list A) :=
  match s with
  | [] => [[]]
  | c :: t => if sep c then [] :: split t
              else match split t with
                   | [] => [[c]]
                   | h :: r => (c :: h) :: r
                   end
  end.
Definition is_nil (l : list A) : bool := match l with [] => true | _ => false end.
Definition nonempty_segments (s : list A) : list (list A) :=
  filter (fun l => negb (is_nil l)) (split s).
(* drop an empty last segment *)
Definition segments_but_trailing_empty (s : list A) : list (list A) :=
  if is_nil (last (split s) []) then removelast (split s) else split s.
(* glue segments with given separator elements *)
Fixpoint glue (segs : list (list A)) (seps : list A) : list A :=
  match segs, seps with
  | [], _ => []
  | [x], _ => x
  | x :: r, c :: cs => x ++ c :: glue r cs
  | x :: r, [] => x
  end.
End Token.
Arguments Tok {A}. Arguments tbegin {A}. Arguments tend {A}. Arguments skip_empty {A}.
