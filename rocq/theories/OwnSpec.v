(* What C98 says: samplers of the user that note down how they are called, and
   containers of the user that tell the truth. *)
From Coq Require Import ZArith NArith List Bool.
From Verif Require Import OwnModel.
Import ListNotations.
Local Open Scope N_scope.

(* indices within the extents, and where their element lies in row-major order *)
Definition inside (sh is : list N) : Prop := Forall2 (fun i n => i < n) is sh.
Fixpoint offset (sh is : list N) : N :=
  match sh, is with
  | _ :: sh', i :: is' => i * fold_right N.mul 1 sh' + offset sh' is'
  | _, _ => 0
  end.

(* the container has an extent for every dimension, they fit into size_t, and
   data() points to its elements in row-major order *)
Definition honest {V} (c : container V) : Prop :=
  length (shape c) = length (levels c) /\
  fold_right N.mul 1 (shape c) < 2 ^ 64 /\ Forall (fun n => n < 2 ^ 64) (shape c) /\
  (forall is, inside (shape c) is -> memory c (offset (shape c) is) = elems c is).
(* no row is handed out by value with its elements in it *)
Definition lasting {V} (c : container V) : Prop := Forall (fun t => t_rows t <> Owning) (levels c).
(* two containers with the same elements *)
Definition same_elements {V} (a b : container V) : Prop :=
  shape a = shape b /\ forall is, inside (shape a) is -> elems a is = elems b is.

Inductive call {V : Type} :=
| Check (d : nat) (i : Z) (size : N)
| Move (d : nat) (i : Z) (size : N)
| Value (v : V)
| Bound.
Arguments call : clear implicits.

(* a sampler that decides by functions of its arguments, if it has the method at
   all, and notes down every call *)
Record plan (V R : Type) := Plan {
  p_conv : Z -> Z;
  p_check : option (nat -> Z -> N -> bool);
  p_move : option (nat -> Z -> N -> N);
  p_value : option (V -> R);
  p_bound : option R;
  p_plain : V -> R
}.
Arguments Plan {V R}. Arguments p_conv {V R}. Arguments p_check {V R}. Arguments p_move {V R}.
Arguments p_value {V R}. Arguments p_bound {V R}. Arguments p_plain {V R}.

Definition recording {V R} (p : plan V R) : sampler V R (list (call V)) :=
  Sampler (p_conv p)
    (option_map (fun f => (true, fun d i n log => (f d i n, log ++ [Check d i n]))) (p_check p))
    (option_map (fun f => (true, fun d i n log => (f d i n, log ++ [Move d i n]))) (p_move p))
    (option_map (fun f => fun v log => (f v, log ++ [Value v])) (p_value p))
    (option_map (fun r => fun log => (r, log ++ [Bound])) (p_bound p))
    (p_plain p).

(* the documented meaning of the four methods, container_nd.h 855-869 *)
Definition passes {V R} (p : plan V R) (d : nat) (i : Z) (n : N) : bool :=
  match p_check p with Some f => f d i n | None => Z.to_N (i mod 2 ^ 64) <? n end.
Definition goes_to {V R} (p : plan V R) (d : nat) (i : Z) (n : N) : N :=
  match p_move p with Some f => f d i n | None => Z.to_N (i mod 2 ^ 64) end.

(* the arguments of dimension d *)
Section Args.
Context {V R : Type} (p : plan V R) (sh : list N) (idx : list Z).
Definition arg (d : nat) : Z := p_conv p (nth d idx 0%Z).
Definition ext (d : nat) : N := nth d sh 0.
Definition targets : list N := map (fun d => goes_to p d (arg d) (ext d)) (seq 0 (length idx)).
(* the calls for the first k dimensions, in order *)
Definition check_calls (k : nat) : list (call V) :=
  match p_check p with Some _ => map (fun d => Check d (arg d) (ext d)) (seq 0 k) | None => [] end.
Definition move_calls : list (call V) :=
  match p_move p with Some _ => map (fun d => Move d (arg d) (ext d)) (seq 0 (length idx)) | None => [] end.
End Args.

(* ---- which calls there are ---- *)
(* the extents of a level with n dimensions can be found out *)
Definition sized (t : traits) (n : nat) : Prop :=
  t_size1 t = true \/ (n = 1%nat /\ (t_size0 t = true \/ t_array t = true)).
(* operator[] may be used: begin() will do where there is none *)
Definition open_to (t : traits) (const : Prop) : Prop :=
  t_subscript t = true -> const -> t_const_subscript t = true.
(* a row of a const container is const only if it and all before it are references *)
Definition const_row {V} (c : container V) (const : Prop) (d : nat) : Prop :=
  const /\ forall j t, (j < d)%nat -> nth_error (levels c) j = Some t -> t_rows t = Ref.
(* k indices can be applied *)
Definition reachable_by {V} (c : container V) (const : Prop) (k : nat) : Prop :=
  match t_category (top c) with
  | Continuous => t_data (top c) = true \/ t_array (top c) = true
  | _ => (k <= length (levels c))%nat /\
         forall d t, (d < k)%nat -> nth_error (levels c) d = Some t ->
           sized t (length (levels c) - d) /\ open_to t (const_row c const d)
  end.
