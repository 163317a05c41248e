(* Property theorems for interval_map: C01, C02. *)
From Coq Require Import List ZArith Bool.
From Verif Require Import IntervalMapModel IntervalMapProofs.
Import ListNotations.
Local Open Scope Z_scope.

(* C01: any program of assign calls has defined behaviour, and afterwards every
   key reads as the value of the last call whose interval contains it. *)
Theorem C01_assign_is_pointwise_update :
  forall (V : Type) (veq : V -> V -> bool), (forall a b, reflect (a = b) (veq a b)) ->
  forall (lo : Z) (d : V) (calls : list (call V)),
    Forall (fun c => lo <= cbeg c) calls ->
    exists m, run V veq (init V lo d) calls = Some m /\
      forall k, lo <= k -> read V m k = Some (spec_read V d calls k).
Proof. exact run_init. Qed.
Print Assumptions C01_assign_is_pointwise_update.

Example C01_example :
  run Z Z.eqb (init Z (-100) 0) [Call 0 10 1; Call 5 15 2; Call 10 20 1; Call 3 3 9; Call 7 2 9]
    = Some [(-100, 0); (0, 1); (5, 2); (10, 1); (20, 0)] /\
  spec_read Z 0 [Call 0 10 1; Call 5 15 2; Call 10 20 1] 12 = 1.
Proof. vm_compute. split; reflexivity. Qed.

(* One more assign call on top of any history, written without the fold. *)
Theorem C01_one_more_assign :
  forall (V : Type) (veq : V -> V -> bool), (forall a b, reflect (a = b) (veq a b)) ->
  forall (lo : Z) (d : V) (calls : list (call V)) (m : imap V) (b e : Z) (v : V),
    Forall (fun c => lo <= cbeg c) calls -> lo <= b ->
    run V veq (init V lo d) calls = Some m ->
    exists m', assign V veq m b e v = Some m' /\
      (forall k, b <= k < e -> read V m' k = Some v) /\
      (forall k, ~ (b <= k < e) -> read V m' k = read V m k).
Proof. exact one_more_assign. Qed.
Print Assumptions C01_one_more_assign.

Example C01_one_more_example :
  option_map (fun m => (read Z m 4, read Z m 5, read Z m 9, read Z m 10))
    (assign Z Z.eqb [(0, 7); (3, 8); (9, 7)] 5 10 1) = Some (Some 8, Some 1, Some 1, Some 7).
Proof. vm_compute. reflexivity. Qed.

(* C02: breakpoints are strictly increasing, start at the lowest key, and every
   later one changes the value. *)
Theorem C02_representation_is_canonical :
  forall (V : Type) (veq : V -> V -> bool), (forall a b, reflect (a = b) (veq a b)) ->
  forall (lo : Z) (d : V) (calls : list (call V)) (m : imap V),
    Forall (fun c => lo <= cbeg c) calls ->
    run V veq (init V lo d) calls = Some m -> canonical V lo m.
Proof. exact run_init_canonical. Qed.
Print Assumptions C02_representation_is_canonical.

(* C02: two histories that denote the same function leave identical maps. *)
Theorem C02_same_function_same_breakpoints :
  forall (V : Type) (veq : V -> V -> bool), (forall a b, reflect (a = b) (veq a b)) ->
  forall (lo : Z) (d : V) (calls1 calls2 : list (call V)) (m1 m2 : imap V),
    Forall (fun c => lo <= cbeg c) calls1 -> Forall (fun c => lo <= cbeg c) calls2 ->
    run V veq (init V lo d) calls1 = Some m1 -> run V veq (init V lo d) calls2 = Some m2 ->
    (forall k, lo <= k -> spec_read V d calls1 k = spec_read V d calls2 k) -> m1 = m2.
Proof. exact runs_unique. Qed.
Print Assumptions C02_same_function_same_breakpoints.

Example C02_example :
  run Z Z.eqb (init Z (-9) 0) [Call 0 4 1; Call 4 8 1] = run Z Z.eqb (init Z (-9) 0) [Call 2 3 5; Call 0 8 1] /\
  run Z Z.eqb (init Z (-9) 0) [Call 0 4 1; Call 4 8 1] = Some [(-9, 0); (0, 1); (8, 0)].
Proof. vm_compute. split; reflexivity. Qed.

(* Without the precondition (a key below the lowest one, such as minus infinity
   for floating point keys, where lowest() is the least finite value) assign and
   read decrement begin(). *)
Theorem C01_key_below_lowest_refuted :
  exists (lo : Z) (d : Z) (k : Z), k < lo /\ read Z (init Z lo d) k = None.
Proof. exact below_lowest. Qed.
Print Assumptions C01_key_below_lowest_refuted.
