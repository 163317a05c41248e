(* What multi-dimensional containers are expected to do, without the model:
   row-major positions, the enumeration of all indices, block sizes. *)
From Coq Require Import List NArith ZArith.
Import ListNotations.
Local Open Scope N_scope.

Fixpoint volume (ext : list N) : N :=
  match ext with [] => 1 | e :: r => e * volume r end.

Definition in_range (ext is : list N) : Prop := Forall2 (fun e i => i < e) ext is.

(* position of an index when the cells are numbered row after row *)
Fixpoint row_major (ext is : list N) : N :=
  match ext, is with
  | _ :: r, i :: is' => i * volume r + row_major r is'
  | _, _ => 0
  end.

(* lexicographic order *)
Inductive lex : list N -> list N -> Prop :=
| lex_here i j is js : i < j -> length is = length js -> lex (i :: is) (j :: js)
| lex_there i is js : lex is js -> lex (i :: is) (i :: js).

(* all indices in lexicographic order *)
Definition upto (n : N) : list N := map N.of_nat (seq 0 (N.to_nat n)).
Fixpoint all_indices (ext : list N) : list (list N) :=
  match ext with
  | [] => [[]]
  | e :: r => flat_map (fun i => map (cons i) (all_indices r)) (upto e)
  end.

(* sum of index times step *)
Fixpoint dot (is steps : list N) : N :=
  match is, steps with
  | i :: is', b :: bs => i * b + dot is' bs
  | _, _ => 0
  end.

(* bytes taken by the rows of a strided layout: the last dimension first *)
Fixpoint stored (sz : N) (strides : list N) : N :=
  match strides with [] => sz | s :: r => s * stored sz r end.

(* strides in bytes that leave room for the dimensions below *)
Fixpoint roomy (sz : N) (es : list (N * N)) : Prop :=
  match es with
  | [] => True
  | (e, s) :: r =>
      match r with [] => e * sz <= s | (_, s') :: _ => e * s' <= s end /\ roomy sz r
  end.

(* nearest index inside a dimension of n > 0 cells *)
Definition nearest (n : N) (i : Z) : N := Z.to_N (Z.max 0 (Z.min i (Z.of_N n - 1))).
Definition int32 (z : Z) : Prop := (- 2 ^ 31 <= z < 2 ^ 31)%Z.
Definition uint64 (z : Z) : Prop := (0 <= z < 2 ^ 64)%Z.
(* arguments that are indices of cells *)
Definition inside (ns : list N) (is : list Z) : Prop :=
  Forall2 (fun n i => (0 <= i < Z.of_N n)%Z) ns is.
