(* A token iterator as a position in the list of the tokens. *)
From Coq Require Import List Bool Arith.
From Verif Require Import TokenModel CursModel.
Import ListNotations.

(* where the segments of a split are: begin and end of each *)
Fixpoint spans {A} (k : nat) (segs : list (list A)) : list (nat * nat) :=
  match segs with
  | [] => []
  | x :: r => (k, k + length x) :: spans (S (k + length x)) r
  end.
Section Spec.
Variable A : Type.
Variable sep : A -> bool.
Variable s : list A.
(* the tokens: all non-empty segments, or all that do not begin at the end of the sequence *)
Definition wanted (skip : bool) (p : nat * nat) : bool := if skip then fst p <? snd p else fst p <? length s.
Definition all_tokens (skip : bool) : list (nat * nat) := filter (wanted skip) (spans 0 (split A sep s)).

(* a variable holds the tokens that are left *)
Definition left := nat -> option (list (nat * nat)).
Definition setl (st : left) (x : nat) (l : list (nat * nat)) : left := fun y => if y =? x then Some l else st y.
Definition here (l : list (nat * nat)) : nat * nat := match l with [] => (length s, length s) | p :: _ => p end.
Definition is_end (l : list (nat * nat)) : bool := match l with [] => true | _ => false end.
Definition same (l k : list (nat * nat)) : bool := (fst (here l) =? fst (here k)) && (snd (here l) =? snd (here k)).

(* None: the variable holds no iterator; the flag: stopped *)
Definition says (debug : bool) (o : cop) (st : left) : option (seen * left * bool) :=
  let advance (x : nat) (show : bool) := option_map (fun l =>
        (if show then Range (fst (here l)) (snd (here l)) else Nothing, setl st x (tl l), debug && is_end l)) (st x) in
  let look (x : nat) (f : list (nat * nat) -> seen) := option_map (fun l => (f l, st, false)) (st x) in
  match o with
  | Make x skip => Some (Nothing, setl st x (all_tokens skip), false)
  | Copy x y => option_map (fun l => (Nothing, setl st x l, false)) (st y)
  | Next x => advance x true
  | Inc x | PostInc x => advance x false
  | Peek x => look x (fun l => Range (fst (here l)) (snd (here l)))
  | HasNext x | NotAtEnd x => look x (fun l => Answer (negb (is_end l)))
  | Empty x | AtEnd x => look x (fun l => Answer (is_end l))
  | Same x y => match st x, st y with Some l, Some k => Some (Answer (same l k), st, false) | _, _ => None end
  | Differ x y => match st x, st y with Some l, Some k => Some (Answer (negb (same l k)), st, false) | _, _ => None end
  end.
Fixpoint story (debug : bool) (os : list cop) (st : left) : option (list seen * bool) :=
  match os with
  | [] => Some ([], false)
  | o :: r =>
      match says debug o st with
      | Some (_, _, true) => Some ([], true)
      | Some (x, st', false) => option_map (fun l => (x :: fst l, snd l)) (story debug r st')
      | None => None
      end
  end.
End Spec.
