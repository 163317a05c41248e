(* What a lookup table is for, in plain integer arithmetic. *)
From Coq Require Import ZArith.
From Verif Require Import LutModel.
Local Open Scope Z_scope.

(* one of the standard integer types *)
Definition standard (t : ity) : Prop := bits t = 8 \/ bits t = 16 \/ bits t = 32 \/ bits t = 64.

Definition fits (t : ity) (v : Z) : Prop := ity_min t <= v <= ity_max t.

(* the grid: sample i belongs to the argument first + i * (last - first) / (N - 1),
   rounded down *)
Definition grid (N first last i : Z) : Z := (first * (N - 1) + i * (last - first)) / (N - 1).

(* distance of x to the unrounded grid point i, times N - 1 *)
Definition distance (N first last i x : Z) : Z :=
  Z.abs (i * (last - first) - (x - first) * (N - 1)).

Definition between (a b y : Z) : Prop := Z.min a b <= y <= Z.max a b.

(* Ranges on which the table can be made.  A negative start needs a table whose
   number of cells is a power of two and an argument type of at most 32 bits. *)
Definition range_ok (AT : ity) (N first last : Z) : Prop :=
  (0 <= first \/ bits AT <= 32 /\ exists k, 0 <= k /\ N - 1 = 2 ^ k) /\
  first < last /\ last < 2 ^ 30 /\ last - first < 2 ^ 30 /\
  - 2 ^ 30 < 2 * N * first < 2 ^ 30 /\ fits AT first /\ fits AT last.

(* Values that survive interpolation: 1024 times the value is representable in
   the type the interpolation is carried out in. *)
Definition value_ok (VT : ity) (y : Z) : Prop := fits VT y /\ fits (common u32 VT) (1024 * y).
