(* What arrays of values are: a table from indices to values for each of them. *)
From Coq Require Import List Bool NArith Arith.
From Verif Require Import NdSpec.
Import ListNotations.
Local Open Scope N_scope.

Fixpoint insideb (ext is : list N) : bool :=
  match ext, is with
  | [], [] => true
  | e :: r, i :: is' => (i <? e) && insideb r is'
  | _, _ => false
  end.
Fixpoint same_index (is js : list N) : bool :=
  match is, js with
  | [], [] => true
  | i :: r, j :: s => (i =? j) && same_index r s
  | _, _ => false
  end.

(* the a-th array at index is *)
Definition tables (V : Type) := nat -> list N -> V.

Definition set {V} (t : tables V) (a : nat) (is : list N) (v : V) : tables V :=
  fun b js => if (b =? a)%nat && same_index js is then v else t b js.
(* the k-th element, row after row *)
Definition set_nth {V} (ext : list N) (t : tables V) (a : nat) (k : N) (v : V) : tables V :=
  fun b js => if (b =? a)%nat && (row_major ext js =? k) then v else t b js.
Definition set_all {V} (t : tables V) (a : nat) (v : V) : tables V :=
  fun b js => if (b =? a)%nat then v else t b js.
Definition exchange {V} (t : tables V) (a b : nat) : tables V :=
  fun c js => if (c =? a)%nat then t b js else if (c =? b)%nat then t a js else t c js.
Definition copy {V} (t : tables V) (a b : nat) : tables V :=
  fun c js => if (c =? a)%nat then t b js else t c js.

(* The meaning of a program over arrays of the given shapes; None: the call throws
   and nothing changes.  Only the syntax of programs comes from the model. *)
From Verif Require Import ArrModel.
Definition shape_of (shapes : list (list N)) (a : nat) : list N := nth a shapes [].
Definition value_of {V} (shapes : list (list N)) (t : tables V) (s : src V) : option V :=
  match s with
  | Value v => Some v
  | Elem _ a is => if insideb (shape_of shapes a) is then Some (t a is) else None
  end.
Definition meaning {V} (shapes : list (list N)) (o : op V) (t : tables V) : option (tables V) :=
  match o with
  | Store _ a is s =>
      if insideb (shape_of shapes a) is then option_map (set t a is) (value_of shapes t s) else None
  | StorePlain a k s => option_map (set_nth (shape_of shapes a) t a k) (value_of shapes t s)
  | Fill a v => Some (set_all t a v)
  | Swap a b => Some (exchange t a b)
  | Assign a b => Some (copy t a b)
  end.
Fixpoint meanings {V} (shapes : list (list N)) (os : list (op V)) (t : tables V) : list bool * tables V :=
  match os with
  | [] => ([], t)
  | o :: r => match meaning shapes o t with
              | Some t' => let x := meanings shapes r t' in (false :: fst x, snd x)
              | None => let x := meanings shapes r t in (true :: fst x, snd x)
              end
  end.

(* programs that compile and, other than through at, stay inside the arrays *)
Definition names_element (shapes : list (list N)) (p : path) (a : nat) (is : list N) : Prop :=
  (a < length shapes)%nat /\ length is = length (shape_of shapes a) /\
  (p <> At -> in_range (shape_of shapes a) is).
Definition names_source {V} (shapes : list (list N)) (s : src V) : Prop :=
  match s with Value _ => True | Elem p a is => names_element shapes p a is end.
Definition legal {V} (shapes : list (list N)) (o : op V) : Prop :=
  match o with
  | Store p a is s => names_element shapes p a is /\ names_source shapes s
  | StorePlain a k s => (a < length shapes)%nat /\ k < volume (shape_of shapes a) /\ names_source shapes s
  | Fill a _ => (a < length shapes)%nat
  | Swap a b | Assign a b =>
      (a < length shapes)%nat /\ (b < length shapes)%nat /\ shape_of shapes a = shape_of shapes b
  end.
