(* The properties of vector_view. *)
From Coq Require Import List Bool Arith Lia.
From Verif Require Import ViewModel ViewSpec ViewProofs.
Import ListNotations.

(* An operation within its contract, and spared the defects of insert and erase,
   has the effect it has on a vector and changes nothing outside the places the
   view was given. *)
Theorem C57_bounded_vector (V : Type) (trivial : bool) (o : op V) (m : list (cell V)) (v : view) :
  valid m v -> contract (m_max v) (content m v) o -> spared trivial (m_max v) (content m v) o ->
  exists m' v', run_op trivial o m v = Ok (m', v') /\ valid m' v' /\ m_begin v' = m_begin v /\ m_max v' = m_max v /\
    outside_kept v m m' /\ effect o (content m v) (content m' v').
Proof. exact (op_ok trivial o m v). Qed.
Print Assumptions C57_bounded_vector.

Definition c57_array : list (cell nat) := map Has [9; 1; 2; 3; 7; 7; 7; 7; 9].
Definition c57_view : view := make_from 1 4 7.

(* a value put between elements, which are integers *)
Example C57_bounded_vector_example :
  valid c57_array c57_view /\ contract 7 (content c57_array c57_view) (Insert 1 (Outside (Has 5))) /\
  spared true 7 (content c57_array c57_view) (Insert 1 (Outside (Has 5))) /\
  exists m' v', insert true c57_array c57_view 1 (Outside (Has 5)) = Ok (m', v') /\
    content m' v' = map Has [1; 5; 2; 3] /\ m' = map Has [9; 1; 5; 2; 3; 7; 7; 7; 9].
Proof.
  unfold valid. cbn. repeat split; try lia. eexists. eexists. split; [reflexivity|]. split; reflexivity.
Qed.

(* Every history of such operations leads where the history leads a vector. *)
Theorem C57_histories (V : Type) (trivial : bool) (os : list (op V)) (m : list (cell V)) (v : view) :
  valid m v -> careful trivial (m_max v) os (content m v) ->
  exists m' v', run_ops trivial os m v = Ok (m', v') /\ valid m' v' /\ m_begin v' = m_begin v /\ m_max v' = m_max v /\
    outside_kept v m m' /\ follows trivial (m_max v) os (content m v) (content m' v').
Proof. exact (history trivial os m v). Qed.
Print Assumptions C57_histories.

Definition c57_history : list (op nat) :=
  [PushBack (Has 4); SetIndex 0 (Has 8); PopBack; Insert 3 (Inside 0); EraseRange 2 4; ResizeWith 5 (Has 6); Erase 4; InsertRange 4 [Has 5]; Clear].

Example C57_histories_example :
  valid c57_array c57_view /\ careful false 7 c57_history (content c57_array c57_view) /\
  exists m' v', run_ops false (firstn 8 c57_history) c57_array c57_view = Ok (m', v') /\ content m' v' = map Has [8; 2; 6; 6; 5].
Proof.
  split; [unfold valid; cbn; lia|]. split.
  - cbn [careful c57_history contract spared effect]. split; [cbn; lia|]. split; [exact I|]. intros l1 ->.
    split; [cbn; lia|]. split; [exact I|]. intros l2 ->. cbn. split; [discriminate|]. split; [exact I|].
    intros l3 [c C]. assert (E : l3 = map Has [8; 2; 3]).
    { change [Has 8; Has 2; Has 3; Has 4] with (map Has [8; 2; 3] ++ [Has 4]) in C. apply app_inj_tail in C. symmetry. apply C. }
    subst l3. cbn. split; [lia|]. split; [lia|]. intros l4 [d [D ->]]. injection D as <-. cbn.
    split; [lia|]. split; [right; right; lia|]. intros l5 ->. cbn. split; [lia|]. split; [exact I|]. intros l6 ->. cbn.
    split; [lia|]. split; [right; lia|]. intros l7 ->. cbn. split; [lia|]. split; [right; split; [right; reflexivity|lia]|].
    intros l8 ->. cbn. auto.
  - eexists. eexists. split; [vm_compute; reflexivity|reflexivity].
Qed.

(* size, empty, at, operator[], front and back show the elements. *)
Theorem C57_observers (V : Type) (m : list (cell V)) (v : view) : valid m v ->
  size v = length (content m v) /\ (empty v = true <-> content m v = []) /\
  (forall i, at_ m v i = match nth_error (content m v) i with Some c => Ok c | None => OutOfRange end) /\
  (forall i c, nth_error (content m v) i = Some c -> index m v i = Ok c) /\
  (forall c l, content m v = c :: l -> front m v = Ok c) /\
  (forall c l, content m v = l ++ [c] -> back m v = Ok c).
Proof. exact (observe m v). Qed.
Print Assumptions C57_observers.

Example C57_observers_example :
  valid c57_array c57_view /\ at_ c57_array c57_view 2 = Ok (Has 3) /\ at_ c57_array c57_view 3 = OutOfRange /\
  front c57_array c57_view = Ok (Has 1) /\ back c57_array c57_view = Ok (Has 3).
Proof. unfold valid. cbn. repeat split; lia. Qed.

(* An insertion that fits into the places of the view, but not twice into the
   array, leaves the array. *)
Theorem C57_insert_leaves_the_array (V : Type) (trivial : bool) (m : list (cell V)) (v : view) (pos : nat) (x : list (cell V)) :
  valid m v -> contract (m_max v) (content m v) (InsertRange pos x) -> x <> [] ->
  length m < m_end v + 2 * length x -> insert_range trivial m v pos x = UB.
Proof.
  intros W [C1 C2] N L. rewrite length_content in * by assumption. unfold insert_range.
  rewrite prepare_ub; try assumption; [reflexivity|]. destruct x; [congruence|cbn; lia].
Qed.
Print Assumptions C57_insert_leaves_the_array.

Example C57_insert_leaves_the_array_example :
  valid (map Has [1; 2; 3; 7; 7]) (make_from 0 3 5) /\ contract 5 (map Has [1; 2; 3]) (InsertRange 0 (map Has [5; 6])) /\
  insert_range true (map Has [1; 2; 3; 7; 7]) (make_from 0 3 5) 0 (map Has [5; 6]) = UB.
Proof. unfold valid. cbn. repeat split; lia. Qed.

(* the last free place is enough for a value, yet inserting it, even at the end,
   writes behind the array *)
Theorem C57_insert_into_last_place_refuted :
  exists (m : list (cell nat)) (v : view),
    valid m v /\ contract (m_max v) (content m v) (Insert 2 (Outside (Has 5))) /\
    insert true m v 2 (Outside (Has 5)) = UB /\ insert false m v 2 (Outside (Has 5)) = UB.
Proof. exists (map Has [1; 2; 7]). exists (make_from 0 2 3). unfold valid. cbn. repeat split; lia. Qed.
Print Assumptions C57_insert_into_last_place_refuted.

(* with more of an array behind the view, elements that are not of the view change *)
Theorem C57_insert_outside_refuted :
  exists (m m' : list (cell nat)) (v v' : view),
    valid m v /\ contract (m_max v) (content m v) (Insert 0 (Outside (Has 5))) /\
    insert true m v 0 (Outside (Has 5)) = Ok (m', v') /\ ~ outside_kept v m m'.
Proof.
  exists (map Has [1; 2; 3; 4]). exists (map Has [5; 1; 2; 3]). exists (make_from 0 2 3). exists (make_from 0 3 3).
  unfold valid. cbn. repeat split; try lia. intros [_ H]. specialize (H 3 (or_intror (le_n 3))). discriminate.
Qed.
Print Assumptions C57_insert_outside_refuted.

(* Elements that are not trivially copyable: all that follow an inserted one are
   moved out of the view. *)
Theorem C57_insert_loses_what_follows (V : Type) (m : list (cell V)) (v : view) (pos : nat) (c : cell V) :
  valid m v -> contract (m_max v) (content m v) (Insert pos (Outside c)) -> m_end v + 2 <= length m ->
  exists m' v', insert false m v pos (Outside c) = Ok (m', v') /\
    content m' v' = firstn pos (content m v) ++ c :: repeat Hollow (length (content m v) - pos).
Proof.
  intros W (C1 & C2 & _) L. rewrite length_content in * by assumption. apply insert_lost; try assumption. lia.
Qed.
Print Assumptions C57_insert_loses_what_follows.

Example C57_insert_loses_what_follows_example :
  valid c57_array c57_view /\ contract 7 (content c57_array c57_view) (Insert 1 (Outside (Has 5))) /\
  exists m' v', insert false c57_array c57_view 1 (Outside (Has 5)) = Ok (m', v') /\
    content m' v' = [Has 1; Has 5; Hollow; Hollow].
Proof. unfold valid. cbn. repeat split; try lia. eexists. eexists. split; reflexivity. Qed.

(* Erasing one of several: the last element takes its place, and the ones between
   are gone. *)
Theorem C57_erase_loses_what_follows (V : Type) (m : list (cell V)) (v : view) (pos : nat) (l : list (cell V)) (c : cell V) :
  valid m v -> content m v = l ++ [c] -> pos + 1 <= length l ->
  exists m' v', erase false m v pos = Ok (m', v') /\
    content m' v' = firstn pos l ++ c :: repeat Hollow (length l - pos - 1).
Proof. exact (erase_lost m v pos l c). Qed.
Print Assumptions C57_erase_loses_what_follows.

Example C57_erase_loses_what_follows_example :
  valid c57_array (make_from 1 6 7) /\ content c57_array (make_from 1 6 7) = map Has [1; 2; 3; 7] ++ [Has 7] /\
  exists m' v', erase false c57_array (make_from 1 6 7) 1 = Ok (m', v') /\ content m' v' = [Has 1; Has 7; Hollow; Hollow].
Proof. unfold valid. cbn. repeat split; try lia. eexists. eexists. split; reflexivity. Qed.

Theorem C57_erase_refuted :
  exists (m m' : list (cell nat)) (v v' : view),
    valid m v /\ contract (m_max v) (content m v) (Erase 0) /\
    erase false m v 0 = Ok (m', v') /\ content m v = map Has [1; 2; 3] /\ content m' v' = [Has 3; Hollow].
Proof.
  exists (map Has [1; 2; 3]). eexists. exists (make_from 0 3 3). eexists. unfold valid.
  split; [cbn; lia|]. split; [cbn; lia|]. split; [cbn; reflexivity|]. split; reflexivity.
Qed.
Print Assumptions C57_erase_refuted.

(* inserting an element of the view before itself inserts another one *)
Theorem C57_own_element_refuted :
  exists (m m' : list (cell nat)) (v v' : view),
    valid m v /\ contract (m_max v) (content m v) (Insert 0 (Inside 1)) /\ m_max v = 8 /\
    insert true m v 0 (Inside 1) = Ok (m', v') /\ content m v = map Has [1; 2; 3] /\ content m' v' = map Has [1; 1; 2; 3].
Proof.
  exists (map Has [1; 2; 3; 0; 0; 0; 0; 0]). eexists. exists (make_from 0 3 8). eexists. unfold valid.
  split; [cbn; lia|]. split; [cbn; lia|]. split; [reflexivity|]. split; [cbn; reflexivity|]. split; reflexivity.
Qed.
Print Assumptions C57_own_element_refuted.
