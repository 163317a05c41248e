(* The properties of variant. *)
From Coq Require Import List Bool Arith Lia.
From Verif Require Import LifeModel VarModel VarSpec VarProofs.
Import ListNotations.

(* checking that a concrete history is legal *)
Ltac use := first [left; eexists; eexists; reflexivity|right; reflexivity].
Ltac legal_history :=
  cbn; unfold usable, alternative; cbn;
  repeat match goal with
         | |- _ /\ _ => split
         | |- True => exact I
         | |- NoDup _ => repeat constructor; cbn; lia
         | |- exists _, _ /\ _ => eexists; split; [use|first [use|split; [cbn; lia|discriminate]]]
         | |- exists _, _ \/ _ => eexists; use
         | |- _ => first [reflexivity|discriminate|eexists; reflexivity|cbn; lia]
         end.

(* Whatever a program does with usable variants and whenever an operation of an
   alternative throws: no operation is undefined; each has exactly its effect,
   or throws with the effect given for that; get, get_or, is_type and empty
   answer according to what was last stored; the objects alive are the values
   held and the objects left behind by moves. *)
Theorem C22_simulation (V : Type) (husk : V -> V) :
  exists Rel : world (nat * V) vf -> state V -> Prop,
    (forall oracle, Rel (start oracle) nothing) /\
    (forall w st o, Rel w st -> legal o st ->
       exists threw w', exec husk o w = result threw w' /\ Rel w' (after husk o st threw) /\
         (must_throw o st = true -> threw = true)) /\
    (forall w st, Rel w st -> seen w st /\ balanced w st).
Proof. exact (simulation husk). Qed.
Print Assumptions C22_simulation.

Example C22_simulation_example :
  exists w1 w2,
    run S [NewValue 0 [4; 0; 7] 7 5; NewValue 1 [4; 0; 7] 4 6] (start [false; false; true]) = Some w1 /\
    exec S (CopyAssign 0 1) w1 = Threw w2 /\ get 0 7 w2 = Threw w2 /\ get 1 4 w2 = Done 6 w2 /\
    built w2 = 2 /\ ended w2 = 1.
Proof.
  eexists. eexists. split; [vm_compute; reflexivity|]. split; [vm_compute; reflexivity|].
  vm_compute. repeat split.
Qed.

(* If no alternative's operation throws: after every history of legal operations
   the variants hold what the history says. *)
Theorem C22_histories (V : Type) (husk : V -> V) (l : list (op V)) :
  all_legal husk l nothing ->
  exists w, run husk l (start []) = Some w /\ seen w (effects husk l nothing) /\ balanced w (effects husk l nothing).
Proof. exact (histories husk l). Qed.
Print Assumptions C22_histories.

Definition c22_history : list (op nat) :=
  [NewValue 0 [4; 0; 7] 7 5; NewVoid 1 [4; 0; 7]; CopyAssign 1 0; Emplace 0 4 9; NewCast 2 [7; 3] 1; NewCast 3 [3] 1;
   NewCastMove 4 [9; 4] 0; Delete 1].

Example C22_histories_example :
  all_legal S c22_history nothing /\
  exists w, run S c22_history (start []) = Some w /\
    get 0 4 w = Done 10 w /\ get 2 7 w = Done 5 w /\ vars w 3 = None /\ get 4 4 w = Done 9 w /\ get 4 9 w = Threw w /\
    built w = 5 /\ ended w = 2 /\ lost w = 0.
Proof.
  split.
  - unfold c22_history. legal_history.
  - eexists. split; [vm_compute; reflexivity|]. vm_compute. repeat split.
Qed.

(* Without moves no object is ever left behind: every object there is, is the
   value of a variant, and none is lost. *)
Theorem C22_no_moves_no_leak (V : Type) (husk : V -> V) (l : list (op V)) :
  all_legal husk l nothing -> forallb (fun o => negb (moves o)) l = true ->
  exists w, run husk l (start []) = Some w /\ lost w = 0 /\
    (forall i k x, cells w i k = Some x ->
       exists a t v, x = (t, v) /\ var (effects husk l nothing) i = Some (a, Held t v)).
Proof. exact (no_moves_no_leak husk l). Qed.
Print Assumptions C22_no_moves_no_leak.

Example C22_no_moves_no_leak_example :
  forallb (fun o => negb (moves o)) c22_history = true /\
  all_legal S (c22_history ++ [Delete 0; Delete 2; Delete 4]) nothing /\
  exists w, run S (c22_history ++ [Delete 0; Delete 2; Delete 4]) (start []) = Some w /\ built w = ended w /\ built w = 5.
Proof.
  split; [reflexivity|]. split.
  - unfold c22_history. legal_history.
  - eexists. split; [vm_compute; reflexivity|]. vm_compute. repeat split.
Qed.

(* With moves some objects are never destroyed: a variant that was moved from
   keeps its object, and forgets it when it goes away. *)
Theorem C22_moved_from_leaks_refuted :
  exists (l : list (op nat)) w, all_legal S l nothing /\ run S l (start []) = Some w /\
    (forall i, vars w i = None) /\ built w = 2 /\ ended w = 1 /\ lost w = 1.
Proof.
  exists [NewValue 0 [4; 7] 7 5; NewMove 1 0; Delete 0; Delete 1]. eexists. split.
  - legal_history.
  - split; [vm_compute; reflexivity|]. split; [|vm_compute; repeat split].
    intros i. destruct i as [|[|i]]; reflexivity.
Qed.
Print Assumptions C22_moved_from_leaks_refuted.

(* A variant that was moved from, or whose last assignment or emplace threw,
   can only be looked at and destroyed: copying it, assigning to it and
   emplacing into it read outside the dispatch table. *)
Theorem C22_spent_is_unusable (V : Type) (husk : V -> V) (w : world (nat * V) vf) i l :
  vars w i = Some (MkVf l None) ->
  (forall k, vars w k = None -> k <> i -> exec husk (NewCopy k i) w = Undef /\ exec husk (NewMove k i) w = Undef) /\
  (forall t v, exec husk (Emplace i t v) w = Undef) /\
  (forall j, vars w j <> None -> exec husk (CopyAssign i j) w = Undef /\ exec husk (MoveAssign i j) w = Undef).
Proof. exact (spent_is_unusable husk w i l). Qed.
Print Assumptions C22_spent_is_unusable.

Theorem C22_assign_to_moved_from_refuted :
  exists (l : list (op nat)) w, all_legal S l nothing /\ run S l (start []) = Some w /\
    exec S (CopyAssign 0 1) w = Undef.
Proof.
  exists [NewValue 0 [4; 7] 7 5; NewMove 1 0]. eexists. split.
  - legal_history.
  - split; vm_compute; reflexivity.
Qed.
Print Assumptions C22_assign_to_moved_from_refuted.

(* Assigning a variant to itself by move loses its value. *)
Theorem C22_self_move_refuted :
  exists (l : list (op nat)) w w', all_legal S (l ++ [MoveAssign 0 0]) nothing /\ run S l (start []) = Some w /\
    get 0 7 w = Done 5 w /\ exec S (MoveAssign 0 0) w = Done tt w' /\ get 0 7 w' = Threw w'.
Proof.
  exists [NewValue 0 [4; 7] 7 5]. eexists. eexists. split.
  - legal_history.
  - split; [vm_compute; reflexivity|]. split; [vm_compute; reflexivity|]. split; [vm_compute; reflexivity|].
    vm_compute. reflexivity.
Qed.
Print Assumptions C22_self_move_refuted.
