(* Programs over several token_iterators of one sequence with one predicate:
   include/yato/token_iterator.h, in release and debug builds.  The iterator itself is that of
   TokenModel; YATO_REQUIRES ends a debug build (assertion.h:100-106).
   Simplified: underlying iterators are unchanged by being moved from, as pointers and
   iterators of strings are (the constructors, 139-151, move `first` twice; see [make_moved]);
   the result of operator++(int), 201-207, a reference to a local variable, is not used. *)
From Coq Require Import List Bool Arith.
From Verif Require Import TokenModel.
Import ListNotations.

Inductive cop :=
| Make (x : nat) (skip : bool)       (* it x(first, last, pred, skip), and x = it(...) *)
| Copy (x y : nat)                   (* x(y), x = y *)
| Next (x : nat)                     (* x.next() *)
| Inc (x : nat)                      (* ++x *)
| PostInc (x : nat)                  (* x++ *)
| Peek (x : nat)                     (* x.peek(), *x, x-> *)
| HasNext (x : nat)
| Empty (x : nat)
| Same (x y : nat)                   (* x == y *)
| Differ (x y : nat)                 (* x != y *)
| AtEnd (x : nat)                    (* x == tokens_end, tokens_end == x *)
| NotAtEnd (x : nat).                (* x != tokens_end, tokens_end != x *)
(* what a caller sees: a range, as the distances of its ends from the begin of the sequence *)
Inductive seen := Range (b e : nat) | Answer (b : bool) | Nothing.

Section Curs.
Variable A : Type.
Variable sep : A -> bool.
Variable s : list A.
Definition store := nat -> option (tok A).
Definition upd (st : store) (x : nat) (t : tok A) : store := fun y => if y =? x then Some t else st y.
(* Wrong: the variable holds no iterator, or fuel ran out *)
Inductive result := Ok (o : seen) (st : store) | Stopped | Wrong.

Definition fuel : nat := S (length s).
(* a range, 171-174 *)
Definition range_at (t : tok A) : seen := Range (length s - length (tbegin t)) (length s - length (tend t)).
(* 176-182 next; 194-199 and 201-207 ++ assert and call it *)
Definition do_next (debug : bool) (st : store) (x : nat) (show : bool) : result :=
  match st x with
  | None => Wrong
  | Some t =>
      if debug && negb (has_next A t) then Stopped
      else match next_token A sep fuel t with
           | None => Wrong
           | Some t' => Ok (if show then range_at t else Nothing) (upd st x t')
           end
  end.
Definition look (st : store) (x : nat) (f : tok A -> seen) : result :=
  match st x with None => Wrong | Some t => Ok (f t) st end.
(* 209-213 *)
Definition equal (t u : tok A) : bool := it_eqb A (tbegin t) (tbegin u) && it_eqb A (tend t) (tend u).
(* 227-231 *)
Definition unequal (t u : tok A) : bool := negb (it_eqb A (tbegin t) (tbegin u)) || negb (it_eqb A (tend t) (tend u)).

Definition exec (debug : bool) (o : cop) (st : store) : result :=
  match o with
  | Make x skip =>                                                              (* 139-151 *)
      match make A sep fuel s skip with None => Wrong | Some t => Ok Nothing (upd st x t) end
  | Copy x y => match st y with None => Wrong | Some t => Ok Nothing (upd st x t) end  (* 153-157 *)
  | Next x => do_next debug st x true                                           (* 176-182 *)
  | Inc x => do_next debug st x false                                           (* 194-199 *)
  | PostInc x => do_next debug st x false                                       (* 201-207 *)
  | Peek x => look st x range_at                                                (* 171-174, 184-192 *)
  | HasNext x => look st x (fun t => Answer (has_next A t))                     (* 161-164 *)
  | Empty x => look st x (fun t => Answer (negb (has_next A t)))                (* 166-169 *)
  | Same x y => match st x, st y with Some t, Some u => Ok (Answer (equal t u)) st | _, _ => Wrong end
  | Differ x y => match st x, st y with Some t, Some u => Ok (Answer (unequal t u)) st | _, _ => Wrong end
  | AtEnd x => look st x (fun t => Answer (negb (has_next A t)))                (* 215-225 *)
  | NotAtEnd x => look st x (fun t => Answer (has_next A t))                    (* 233-243 *)
  end.
(* what is seen, and whether an assertion ended the program *)
Fixpoint run (debug : bool) (os : list cop) (st : store) : option (list seen * bool) :=
  match os with
  | [] => Some ([], false)
  | o :: r =>
      match exec debug o st with
      | Ok x st' => option_map (fun l => (x :: fst l, snd l)) (run debug r st')
      | Stopped => Some ([], true)
      | Wrong => None
      end
  end.

(* 139-151: m_token_begin(std::move(first)), m_token_end(std::move(first)): the second is made
   of an iterator moved from.  [moved] is what such an iterator is; m_end is unaffected *)
Definition make_moved (moved : list A -> list A) (skip : bool) : option (tok A) :=
  let t := Tok s (move_iterator A sep (moved s)) skip in
  if skip && it_eqb A (tbegin t) (tend t) then next_token A sep fuel t else Some t.
End Curs.
Arguments Ok {A}. Arguments Stopped {A}. Arguments Wrong {A}.
