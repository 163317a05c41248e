(* C108: the assertions of vector_view. *)
From Coq Require Import List Bool Arith Lia.
From Verif Require Import ViewModel ViewSpec ViewProofs VdbgModel VdbgSpec VdbgProofs.
Import ListNotations.

(* In a debug build a call is stopped iff it breaks what is checked. *)
Theorem C108_stops_exactly (V : Type) (trivial : bool) (o : call V) (m : list (cell V)) (v : view) : valid m v ->
  (exec true trivial o m v = Stop <-> ~ checked (m_max v) (m_begin v) (size v) o).
Proof. exact (stops trivial o m v). Qed.
Print Assumptions C108_stops_exactly.

Definition c108_array : list (cell nat) := map Has [9; 1; 2; 3; 7; 7; 7; 7; 9].
Definition c108_view : view := make_from 1 4 7.

Example C108_stops_exactly_example :
  valid c108_array c108_view /\ exec true true (Index 3) c108_array c108_view = Stop /\
  exec true true (Resize 8) c108_array c108_view = Stop /\ exec true true (Insert 5 (Outside (Has 0))) c108_array c108_view = Stop /\
  exec true true (EraseRange 3 2) c108_array c108_view = Stop.
Proof. unfold valid. cbn. repeat split; lia. Qed.

(* A call that keeps the contract is never stopped; and one that is not stopped keeps
   it, but for those of [gap]. *)
Theorem C108_contract (V : Type) (trivial : bool) (o : call V) (m : list (cell V)) (v : view) : valid m v ->
  (exec true trivial o m v <> Stop /\ ~ gap (m_begin v) (size v) o <-> keeps (m_max v) (m_begin v) (size v) o).
Proof.
  intros W. assert (L : size v <= m_max v) by (destruct W as (A & B & C); unfold size; lia). rewrite (stops trivial o m v W). split.
  - intros [N G]. apply checked_keeps; [|exact G].
    destruct o as [j c|j|j c|i c|i|i| | | |c| |p a|p l| |p|p q]; cbn in N |- *; lia.
  - intros K. destruct (keeps_checked _ _ _ _ L K) as [C G]. split; [|exact G]. intros N. exact (N C).
Qed.
Print Assumptions C108_contract.

Example C108_contract_example :
  valid c108_array c108_view /\ keeps 7 1 3 (Insert 4 (Inside 2) : call nat) /\ keeps 7 1 3 (EraseRange 2 4 : call nat) /\
  gap 1 3 (Erase 4 : call nat) /\ exec true true (Erase 4) c108_array c108_view <> Stop.
Proof. unfold valid. cbn. repeat split; try lia; discriminate. Qed.

(* What is not stopped does what it does in a release build. *)
Theorem C108_same_as_release (V : Type) (trivial : bool) (o : call V) (m : list (cell V)) (v : view) :
  exec true trivial o m v <> Stop -> exec true trivial o m v = exec false trivial o m v.
Proof. exact (release trivial o m v). Qed.
Print Assumptions C108_same_as_release.

Example C108_same_as_release_example :
  exec true true (Erase 2) c108_array c108_view = exec false true (Erase 2) c108_array c108_view /\
  exec false true (Erase 2) c108_array c108_view = Go (map Has [9; 1; 3; 3; 7; 7; 7; 7; 9], make_from 1 3 7, None).
Proof. split; reflexivity. Qed.

(* Calls that keep the contract are, in both builds, the operations C57 is about. *)
Theorem C108_correct_calls (V : Type) (debug trivial : bool) (o : call V) (p : op V) (m : list (cell V)) (v : view) :
  valid m v -> keeps (m_max v) (m_begin v) (size v) o -> as_op (m_begin v) o = Some p ->
  contract (m_max v) (content m v) p /\
  (forall m' v', exec debug trivial o m v = Go (m', v', None) <-> run_op trivial p m v = Ok (m', v')) /\
  (exec debug trivial o m v = Wild <-> run_op trivial p m v = UB).
Proof.
  intros W K E. split; [exact (keeps_contract m v o p W K E)|].
  rewrite (same_op debug trivial o m v p W K E). destruct (run_op trivial p m v) as [[m1 v1]| |]; cbn; split; intros; split; congruence.
Qed.
Print Assumptions C108_correct_calls.

Example C108_correct_calls_example :
  valid c108_array c108_view /\ keeps 7 1 3 (Insert 2 (Outside (Has 5))) /\
  as_op 1 (Insert 2 (Outside (Has 5))) = Some (ViewSpec.Insert 1 (Outside (Has 5))) /\
  exec true true (Insert 2 (Outside (Has 5))) c108_array c108_view = Go (map Has [9; 1; 5; 2; 3; 7; 7; 7; 9], make_from 1 5 7, None).
Proof. unfold valid. cbn. repeat split; lia. Qed.

(* A program that, besides what moves elements, calls everything but front and back,
   with any arguments: in a debug build it is stopped at the first call that breaks
   the contract, which depends only on the sizes, and otherwise does what it should;
   it never leaves the places of the view. *)
Theorem C108_confined (V : Type) (trivial : bool) (os : list (call V)) (m : list (cell V)) (v : view) :
  (forall o, In o os -> plain o) -> valid m v ->
  match sizes (m_max v) (size v) os with
  | None => play true trivial os m v = Stop
  | Some k => exists m' v', play true trivial os m v = Go (m', v') /\ valid m' v' /\ m_begin v' = m_begin v /\ m_max v' = m_max v /\
      size v' = k /\ outside_kept v m m' /\ leads os (content m v) (content m' v')
  end.
Proof. exact (plain_play trivial os m v). Qed.
Print Assumptions C108_confined.

Definition c108_program : list (call nat) :=
  [PushBack (Has 4); At 9; SetIndex 0 (Has 8); PopBack; ResizeWith 6 (Has 5); Index 5; Resize 7; Clear; Assign 2 (Has 3)].

Example C108_confined_example :
  (forall o, In o c108_program -> plain o) /\ valid c108_array c108_view /\ sizes 7 3 c108_program = Some 2 /\
  play true true c108_program c108_array c108_view = Go (map Has [9; 3; 3; 3; 5; 5; 5; 7; 9], make_from 1 3 7) /\
  sizes 7 3 (c108_program ++ [PopBack; PopBack; PopBack]) = None /\
  play true true (c108_program ++ [PopBack; PopBack; PopBack]) c108_array c108_view = Stop.
Proof.
  unfold valid. split; [|cbn; repeat split; lia].
  intros o H. cbn in H. repeat (destruct H as [<-|H]; [exact I|]). destruct H.
Qed.

(* at never stops: it shows the element or throws, and changes nothing. *)
Theorem C108_at (V : Type) (debug trivial : bool) (i : nat) (m : list (cell V)) (v : view) : valid m v ->
  exec debug trivial (At i) m v = match nth_error (content m v) i with Some c => Go (m, v, Some c) | None => Thrown end.
Proof.
  intros W. destruct (observe m v W) as (_ & _ & Oa & _). specialize (Oa i). cbn [exec]. unfold dat, dindex. unfold at_ in Oa.
  destruct (size v <=? i) eqn:L.
  - destruct (nth_error (content m v) i); [discriminate|reflexivity].
  - apply Nat.leb_gt, Nat.ltb_lt in L. rewrite L, req_true, Oa.
    destruct (nth_error (content m v) i); reflexivity.
Qed.
Print Assumptions C108_at.

Example C108_at_example :
  valid c108_array c108_view /\ exec true true (At 2) c108_array c108_view = Go (c108_array, c108_view, Some (Has 3)) /\
  exec true true (At 3) c108_array c108_view = Thrown.
Proof. unfold valid. cbn. repeat split; lia. Qed.

(* erase of the end, and of ranges that reach beyond it, are undefined and not
   stopped, whatever the elements. *)
Theorem C108_erase_beyond_undefined (V : Type) (debug trivial : bool) (m : list (cell V)) (v : view) : valid m v ->
  (0 < size v -> exec debug trivial (Erase (m_end v)) m v = Wild) /\
  (forall p q, p <= m_end v < q -> q - p <= size v -> exec debug trivial (EraseRange p q) m v = Wild).
Proof.
  intros W. pose proof W as (A & B & C). split.
  - intros L. cbn [exec]. unfold derase. rewrite (empty_size m v W). destruct (Nat.eqb_spec (size v) 0); [lia|]. cbn [negb].
    rewrite req_true. unfold derase_n. rewrite Nat.leb_refl, req_true. cbn [Nat.eqb].
    destruct (Nat.ltb_spec (m_end v) (m_end v + 1)); [reflexivity|lia].
  - intros p q [P Q] L. cbn [exec]. unfold derase_range.
    replace (p <=? q) with true by (symmetry; apply Nat.leb_le; lia).
    replace (q - p <=? size v) with true by (symmetry; apply Nat.leb_le; lia). rewrite !req_true. unfold derase_n.
    replace (p <=? m_end v) with true by (symmetry; apply Nat.leb_le; lia). rewrite req_true.
    destruct (Nat.eqb_spec (q - p) 0); [lia|]. destruct (Nat.ltb_spec (m_end v) (p + (q - p))); [reflexivity|lia].
Qed.
Print Assumptions C108_erase_beyond_undefined.

Example C108_erase_beyond_undefined_example :
  valid c108_array c108_view /\ exec true true (Erase 4) c108_array c108_view = Wild /\
  exec true false (EraseRange 3 5) c108_array c108_view = Wild.
Proof. unfold valid. cbn. repeat split; lia. Qed.

(* So the assertions do not confine insert and erase: a debug build lets them write
   outside the view, given a place before it (1) or an insertion the contract allows
   (2), and lets front show what is not in the view (3). *)
Theorem C108_confined_refuted :
  (exists (m m' : list (cell nat)) v v', valid m v /\ iterators m (Erase 0 : call nat) /\
     exec true true (Erase 0) m v = Go (m', v', None) /\ ~ outside_kept v m m') /\
  (exists (m m' : list (cell nat)) v v' o, valid m v /\ keeps (m_max v) (m_begin v) (size v) o /\
     exec true true o m v = Go (m', v', None) /\ ~ outside_kept v m m') /\
  (exists (m : list (cell nat)) v c, valid m v /\ content m v = [] /\ exec true true Front m v = Go (m, v, Some c)).
Proof.
  split; [|split].
  - exists c108_array, (map Has [1; 2; 3; 3; 7; 7; 7; 7; 9]), c108_view, (make_from 1 3 7). unfold valid, iterators.
    cbn. repeat split; try lia. intros [_ H]. specialize (H 0 (or_introl (le_n 1))). discriminate.
  - exists (map Has [1; 2; 3; 4]), (map Has [5; 1; 2; 3]), (make_from 0 2 3), (make_from 0 3 3), (Insert 0 (Outside (Has 5))).
    unfold valid. cbn. repeat split; try lia. intros [_ H]. specialize (H 3 (or_intror (le_n 3))). discriminate.
  - exists c108_array, (make 1 7), (Has 1). unfold valid. cbn. repeat split; lia.
Qed.
Print Assumptions C108_confined_refuted.

(* In a release build the same plain calls leave the view: an index beyond the size
   shows another element, push_back into a full view writes behind it, pop_back of an
   empty view gives one that ends before it begins. *)
Theorem C108_release_unchecked_refuted :
  (exists (m : list (cell nat)) v i c, valid m v /\ size v <= i /\ exec false true (Index i) m v = Go (m, v, Some c)) /\
  (exists (m m' : list (cell nat)) v v' o, plain o /\ valid m v /\ exec false true o m v = Go (m', v', None) /\ ~ outside_kept v m m') /\
  (exists (m m' : list (cell nat)) v v', valid m v /\ exec false true PopBack m v = Go (m', v', None) /\ m_end v' < m_begin v').
Proof.
  split; [|split].
  - exists c108_array, c108_view, 3, (Has 7). unfold valid. cbn. repeat split; lia.
  - exists c108_array, (map Has [9; 1; 2; 3; 0; 7; 7; 7; 9]), (make_from 1 4 3), (make_from 1 5 3), (PushBack (Has 0)).
    unfold valid. cbn. repeat split; try lia. intros [_ H]. specialize (H 4 (or_intror (le_n 4))). discriminate.
  - exists c108_array, c108_array, (make 1 7), (make_from 1 0 7). unfold valid. cbn. repeat split; lia.
Qed.
Print Assumptions C108_release_unchecked_refuted.
