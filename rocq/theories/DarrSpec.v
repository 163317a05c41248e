(* What a program over arrays means in a debug build: tables of values, and a judgement
   on every access. *)
From Coq Require Import List Bool NArith Arith.
From Verif Require Import NdSpec ArrSpec ArrModel.
Import ListNotations.
Local Open Scope N_scope.

Inductive judgement := Allowed | Refused | Fatal.
(* an index outside: at throws, brackets end the program *)
Definition judge (shapes : list (list N)) (p : path) (a : nat) (is : list N) : judgement :=
  if insideb (shape_of shapes a) is then Allowed else match p with At => Refused | _ => Fatal end.
Definition judge_source {V} (shapes : list (list N)) (s : src V) : judgement :=
  match s with Value _ => Allowed | Elem p a is => judge shapes p a is end.
(* the judgement that comes first *)
Definition earlier (x y : judgement) : judgement := match x with Allowed => y | _ => x end.
Definition judge_op {V} (source_first : bool) (shapes : list (list N)) (o : op V) : judgement :=
  match o with
  | Store p a is s =>
      if source_first then earlier (judge_source shapes s) (judge shapes p a is)
      else earlier (judge shapes p a is) (judge_source shapes s)
  | StorePlain _ _ s => judge_source shapes s
  | _ => Allowed
  end.
(* which calls threw, whether the program was ended, and the tables then *)
Fixpoint judged {V} (source_first : bool) (shapes : list (list N)) (os : list (op V)) (t : tables V) : list bool * bool * tables V :=
  match os with
  | [] => ([], false, t)
  | o :: r =>
      match judge_op source_first shapes o with
      | Fatal => ([], true, t)
      | Refused => let x := judged source_first shapes r t in (true :: fst (fst x), snd (fst x), snd x)
      | Allowed =>
          let x := judged source_first shapes r (match meaning shapes o t with Some t' => t' | None => t end) in
          (false :: fst (fst x), snd (fst x), snd x)
      end
  end.

(* programs that compile; iterators, views and data() stay inside the arrays, brackets and at
   are used with any index *)
Definition names_some (shapes : list (list N)) (p : path) (a : nat) (is : list N) : Prop :=
  (a < length shapes)%nat /\ length is = length (shape_of shapes a) /\
  (p = Iterators \/ p = View -> in_range (shape_of shapes a) is).
Definition names_some_source {V} (shapes : list (list N)) (s : src V) : Prop :=
  match s with Value _ => True | Elem p a is => names_some shapes p a is end.
Definition compiles {V} (shapes : list (list N)) (o : op V) : Prop :=
  match o with
  | Store p a is s => names_some shapes p a is /\ names_some_source shapes s
  | StorePlain a k s => (a < length shapes)%nat /\ k < volume (shape_of shapes a) /\ names_some_source shapes s
  | Fill a _ => (a < length shapes)%nat
  | Swap a b | Assign a b =>
      (a < length shapes)%nat /\ (b < length shapes)%nat /\ shape_of shapes a = shape_of shapes b
  end.
