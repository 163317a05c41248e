(* A zip iterator as one row number of a table. *)
From Coq Require Import List Bool ZArith.
From Verif Require Import ZipModel.
Import ListNotations.
Local Open Scope Z_scope.

Section Spec.
Context {V : Type}.
(* rows 0 .. n-1 and k columns; row i of column c is at position base c + i *)
Variables (n : Z) (bases : list Z).
Definition table := Z -> nat -> V.
Definition k : nat := length bases.
Record sheet := Sheet { rows : nat -> option Z; cells : table }.
Definition setr (s : sheet) (x : nat) (i : Z) : sheet := Sheet (fun y => if Nat.eqb y x then Some i else rows s y) (cells s).
Definition on_row (i : Z) : bool := (0 <=? i) && (i <? n).
Definition up_to_end (i : Z) : bool := (0 <=? i) && (i <=? n).
Definition put_row (t : table) (i : Z) (f : nat -> V) : table := fun j c => if j =? i then f c else t j c.

(* None: the program leaves the table; the flag: stopped *)
Definition says (debug : bool) (o : zop V) (s : sheet) : option (seen V * sheet * bool) :=
  let got x f := match rows s x with Some i => f i | None => None end in
  let both x y f := got x (fun i => got y (fun j => f i j)) in
  let go x i d := if up_to_end (i + d) then Some (setr s x (i + d)) else None in
  let quiet r := option_map (fun s' => (Nothing, s', false)) r in
  match o with
  | Make x ps => match ps, bases with
      | p :: _, b :: _ => if up_to_end (p - b) && (if list_eq_dec Z.eq_dec ps (map (fun a => a + (p - b)) bases) then true else false)
                          then Some (Nothing, setr s x (p - b), false) else None
      | _, _ => None
      end
  | New x y => got y (fun i => Some (Nothing, setr s x i, false))
  | Assign x y => both x y (fun _ j => Some (Nothing, setr s x j, debug && Nat.eqb x y))
  | Swap x y => both x y (fun i j => Some (Nothing, setr (setr s x j) y i, debug && Nat.eqb x y))
  | Inc x => got x (fun i => quiet (go x i 1))
  | Dec x => got x (fun i => quiet (go x i (-1)))
  | PostInc y x => got x (fun i => option_map (fun s' => (Nothing, setr s' y i, false)) (go x i 1))
  | PostDec y x => got x (fun i => option_map (fun s' => (Nothing, setr s' y i, false)) (go x i (-1)))
  | Advance x d => got x (fun i => quiet (go x i d))
  | Retreat x d => got x (fun i => quiet (go x i (- d)))
  | Plus y x d => got x (fun i => quiet (go y i d))
  | Minus x y => both x y (fun i j => Some (Number (i - j), s, false))
  | Equal x y => both x y (fun i j => Some (Answer (i =? j), s, false))
  | Unequal x y => both x y (fun i j => Some (Answer (negb (i =? j)), s, false))
  | Less x y => both x y (fun i j => Some (Answer (i <? j), s, false))
  | Greater x y => both x y (fun i j => Some (Answer (j <? i), s, false))
  | NotLess x y => both x y (fun i j => Some (Answer (j <=? i), s, false))
  | Read x => got x (fun i => if on_row i then Some (Values (map (cells s i) (seq 0 k)), s, false) else None)
  | Store x vs => got x (fun i =>
      if on_row i && Nat.eqb (length vs) k
      then Some (Nothing, Sheet (rows s) (put_row (cells s) i (fun c => nth c vs (cells s i c))), false) else None)
  | CopyRow x y => both x y (fun i j =>
      if on_row i && on_row j then Some (Nothing, Sheet (rows s) (put_row (cells s) i (cells s j)), false) else None)
  end.
Fixpoint story (debug : bool) (os : list (zop V)) (s : sheet) : option (list (seen V) * bool * table) :=
  match os with
  | [] => Some ([], false, cells s)
  | o :: r =>
      match says debug o s with
      | Some (_, _, true) => Some ([], true, cells s)
      | Some (x, s', false) => option_map (fun l => (x :: fst (fst l), snd (fst l), snd l)) (story debug r s')
      | None => None
      end
  end.
End Spec.
Arguments sheet V : clear implicits. Arguments table V : clear implicits. Arguments Sheet {V}. Arguments rows {V}. Arguments cells {V}.
