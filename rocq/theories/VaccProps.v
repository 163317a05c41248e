(* C107: reading a variant, by value category, and its conversion to bool. *)
From Coq Require Import List Bool Arith Lia.
From Verif Require Import LifeModel VarModel VarSpec VarProofs VaccModel VaccSpec VaccProofs.
Import ListNotations.

(* Programs that mix operations and accesses in any order, with alternatives
   whose operations throw at any time: every allowed access shows what is
   expected, with the effect on the contents that is expected, or ends the
   program where that is expected; then the operations go on working as C22
   says.  An unchecked access or a kept reference without an object of its type
   is undefined. *)
Theorem C107_accesses (V : Type) (husk : V -> V) :
  exists Rel : world (nat * V) vf -> state V -> Prop,
    (forall oracle, Rel (start oracle) nothing) /\
    (forall w st o, Rel w st -> legal o st ->
       exists threw w', exec husk o w = VarSpec.result threw w' /\ Rel w' (after husk o st threw)) /\
    (forall w st a, Rel w st -> allowed a st ->
       exists r, expected husk a st (hd false (throws w)) r /\
         match do_access husk a w, r with
         | Shows x w', Says y st' => x = y /\ Rel w' st'
         | Terminated, Dies => True
         | _, _ => False
         end) /\
    (forall w st i t, Rel w st -> (forall v, object (var st i) <> Some (t, v)) ->
       do_access husk (Look i t) w = Nonsense /\ forall c, do_access husk (GetUnsafe i t c) w = Nonsense).
Proof.
  exists R. split; [apply R_start|]. split; [|split].
  - intros w st o H L. destruct (every_step_works husk o w st H L) as (threw & w' & E & H' & _). eauto.
  - intros w st a H A. exact (access_works husk w st a H A).
  - intros w st i t H O. exact (dead_access husk w st i t H O).
Qed.
Print Assumptions C107_accesses.

Definition fade (n : nat) : nat := 0.

Example C107_accesses_ex :
  exists w w1 w2 w3,
    run fade [NewValue 0 [4; 0; 7] 7 5; NewVoid 1 [4; 0; 7]] (start [false; false; true]) = Some w /\
    do_access fade (Get 0 7 Rvalue) w = Shows (Value 5) w1 /\ do_access fade (GetUnsafe 0 7 Lvalue) w1 = Shows ElementThrew w2 /\
    do_access fade (Look 0 7) w2 = Shows (Value 0) w2 /\ do_access fade (GetAt 0 0 Lvalue) w2 = Shows BadAccess w2 /\
    do_access fade (GetOrAt 1 2 8 Rvalue) w2 = Shows (Value 8) w3 /\ do_access fade (Type_ 1) w2 = Shows (TypeIs 0) w2 /\
    do_access fade (TypeIndex 0) w2 = Shows (Index 2) w2 /\ do_access fade (Equal 0 1) w2 = Shows (Answer false) w2.
Proof. do 4 eexists. split; [vm_compute; reflexivity|]. split; [vm_compute; reflexivity|]. split; [vm_compute; reflexivity|].
  repeat split. Qed.

(* What is expected of an access that is not made on an rvalue, and of get_or
   by type in any case, leaves all variants as they are. *)
Theorem C107_reading_changes_nothing (V : Type) (husk : V -> V) a (st : state V) threw x st' :
  reads_only a = true -> expected husk a st threw (Says x st') -> st' = st.
Proof. apply reads_keep. Qed.
Print Assumptions C107_reading_changes_nothing.

Example C107_reading_changes_nothing_ex :
  reads_only (@GetOr nat 0 7 1 Rvalue) = true /\
  expected fade (GetOr 0 7 1 Rvalue) (effects fade [NewValue 0 [4; 7] 7 5] nothing) false
    (Says (Value 5) (effects fade [NewValue 0 [4; 7] 7 5] nothing)).
Proof. split; reflexivity. Qed.

(* get_or<T> on an rvalue copies, where get_or<index>, get<T> and get_opt<T> move. *)
Theorem C107_get_or_moves_refuted :
  exists w w1 w2,
    run fade [NewValue 0 [4; 7] 7 5] (start []) = Some w /\
    do_access fade (GetOr 0 7 1 Rvalue) w = Shows (Value 5) w1 /\ do_access fade (Look 0 7) w1 = Shows (Value 5) w1 /\
    do_access fade (GetOrAt 0 1 1 Rvalue) w = Shows (Value 5) w2 /\ do_access fade (Look 0 7) w2 = Shows (Value 0) w2.
Proof. do 3 eexists. split; [vm_compute; reflexivity|]. repeat split. Qed.
Print Assumptions C107_get_or_moves_refuted.

(* A copy that throws ends the program in get_or and get_opt, even for the
   default; in get the program can catch it. *)
Theorem C107_get_or_throws_refuted :
  exists w w', run fade [NewValue 0 [4; 7] 7 5] (start [false; true]) = Some w /\
    do_access fade (GetOr 0 7 1 Lvalue) w = Terminated /\ do_access fade (GetOr 0 4 1 Lvalue) w = Terminated /\
    do_access fade (GetOpt 0 7 Lvalue) w = Terminated /\ do_access fade (Get 0 7 Lvalue) w = Shows ElementThrew w'.
Proof. do 2 eexists. split; [vm_compute; reflexivity|]. repeat split. Qed.
Print Assumptions C107_get_or_throws_refuted.

(* == compiles for variants, by the implicit conversion to bool: variants with
   different types and values are equal. *)
Theorem C107_equality_refuted :
  exists w, run fade [NewValue 0 [4; 0; 7] 7 5; NewValue 1 [4; 0; 7] 4 6] (start []) = Some w /\
    do_access fade (Equal 0 1) w = Shows (Answer true) w.
Proof. eexists. split; vm_compute; reflexivity. Qed.
Print Assumptions C107_equality_refuted.

(* A variant that was moved from is true, not empty, and has no type; its
   index is that of no alternative. *)
Theorem C107_moved_from_is_true_refuted :
  exists w, run fade [NewValue 0 [4; 0; 7] 7 5; NewMove 1 0] (start []) = Some w /\
    do_access fade (ToBool 0) w = Shows (Answer true) w /\ do_access fade (IsEmpty 0) w = Shows (Answer false) w /\
    (forall t, do_access fade (IsType 0 t) w = Shows (Answer false) w) /\ do_access fade (TypeIndex 0) w = Shows (Index 255) w /\
    do_access fade (Type_ 0) w = Nonsense.
Proof.
  eexists. split; [vm_compute; reflexivity|]. split; [vm_compute; reflexivity|]. split; [vm_compute; reflexivity|].
  split; [|split; vm_compute; reflexivity].
  intros t. do 8 (destruct t as [|t]; [vm_compute; reflexivity|]). vm_compute. reflexivity.
Qed.
Print Assumptions C107_moved_from_is_true_refuted.
