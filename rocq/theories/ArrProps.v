(* C95, C96: array_nd as a value, and rows under the algorithms of the standard
   library. *)
From Coq Require Import List Bool NArith ZArith Lia Arith.
From Verif Require Import NdModel NdSpec NdProofs NdAccess NdIter ArrModel ArrSpec ArrProofs ArrRun ArrAlgo.
Import ListNotations.
Local Open Scope N_scope.
Set Default Proof Using "Type".

(* ---- C95 ---- *)

(* Any program over arrays that lie apart computes on the memory what it means for
   tables of values: the same calls throw, the arrays hold the tables, and no other
   address changes. *)
Theorem C95_value {V} sz arrs (os : list (op V)) t m :
  laid_out sz arrs -> Forall (legal (shapes arrs)) os -> holds sz arrs t m ->
  exists m', run sz arrs os m = Some (fst (meanings (shapes arrs) os t), m') /\
    holds sz arrs (snd (meanings (shapes arrs) os t)) m' /\
    (forall x, elsewhere sz arrs x -> m' x = m x).
Proof. intros L F H. now apply run_holds. Qed.
Print Assumptions C95_value.

(* Brackets, at, iterators and the view reach one and the same address, which is the
   row-major one; at throws exactly outside of the array. *)
Theorem C95_paths sz a is :
  0 < sz -> placed sz a ->
  (in_range (shape a) is -> forall p, locate sz p a is = Some (plain_at sz a (row_major (shape a) is))) /\
  (length is = length (shape a) -> ~ in_range (shape a) is -> locate sz At a is = None).
Proof.
  intros Hz P. split.
  - intros R p. rewrite locate_spec; [|exact Hz|exact P|symmetry; now apply in_range_length|intros _; exact R].
    rewrite (proj2 (insideb_spec _ _) R). f_equal. symmetry. apply plain_spec; [exact Hz|exact P|now apply row_major_lt].
  - intros Le R. rewrite locate_spec; [|exact Hz|exact P|exact Le|congruence].
    destruct (insideb (shape a) is) eqn:I; [|reflexivity]. exfalso. apply R. now apply insideb_spec.
Qed.
Print Assumptions C95_paths.

(* Nested loops over the rows and one loop over the plain range see every element
   once, in the order of the indices. *)
Theorem C95_order {V} sz arrs (t : tables V) m a :
  laid_out sz arrs -> holds sz arrs t m -> (a < length arrs)%nat ->
  option_map (map m) (array_visit sz (base (the arrs a)) (shape (the arrs a))) =
    Some (map (t a) (all_indices (shape (the arrs a)))) /\
  option_map (map m) (array_plain_visit sz (the arrs a)) = Some (map (t a) (all_indices (shape (the arrs a)))).
Proof.
  intros L H Ha. pose proof (the_placed _ _ _ L Ha) as P. assert (Hz : 0 < sz) by apply L.
  rewrite plain_visit_spec by assumption. rewrite visit_spec by (exact Hz || apply P).
  cbn [option_map]. rewrite !map_map. split; f_equal.
  - apply map_ext_in. intros is I. apply all_indices_range in I. now apply (H a is).
  - rewrite <- row_major_all, map_map. apply map_ext_in. intros is I. apply all_indices_range in I. now apply (H a is).
Qed.
Print Assumptions C95_order.

Definition two : list arr := [Arr 4096 [2; 3]; Arr 8192 [2; 3]; Arr 1024 [4]].
Lemma two_laid_out : laid_out 8 two.
Proof.
  split; [reflexivity|]. split.
  - repeat constructor; cbn; discriminate || lia || (vm_compute; reflexivity).
  - intros a b H. cbn in H. destruct a as [|[|[|a]]]; destruct b as [|[|[|b]]]; try lia; cbn; lia.
Qed.
Definition prog : list (op nat) :=
  [Fill 0%nat 7%nat; Fill 1%nat 1%nat; Fill 2%nat 0%nat; Store At 0%nat [1; 2] (Value 5%nat);
   Store At 0%nat [2; 0] (Value 6%nat); Swap 0%nat 1%nat; Store View 0%nat [0; 1] (Elem Iterators 1%nat [1; 2]);
   StorePlain 2%nat 3 (Elem Brackets 0%nat [0; 1]); Assign 1%nat 0%nat].
Example C95_ex_legal : Forall (legal (shapes two)) prog.
Proof.
  repeat constructor; cbn; try lia; try congruence; intros _; repeat constructor.
Qed.
Example C95_ex_run :
  exists m', run 8 two prog (fun _ => 9%nat) = Some ([false; false; false; false; true; false; false; false; false], m') /\
    map m' [4096; 4104; 4112; 8192; 8200; 1024; 1048; 8] = [1; 5; 1; 1; 5; 0; 5; 9]%nat.
Proof. eexists. split; vm_compute; reflexivity. Qed.
Example C95_ex_holds : holds 8 two (fun _ _ => 9%nat) (fun _ => 9%nat).
Proof. intros a is _ _. reflexivity. Qed.
Example C95_ex_order :
  array_visit 8 4096 [2; 3] = Some [4096; 4104; 4112; 4120; 4128; 4136] /\
  locate 8 View (Arr 4096 [2; 3]) [1; 2] = Some 4136 /\ locate 8 At (Arr 4096 [2; 3]) [1; 3] = None.
Proof. repeat split; vm_compute; reflexivity. Qed.

(* ---- C96 ---- *)

(* std::copy over the plain iterators of arrays that lie apart copies every element. *)
Theorem C96_plain_copy {V} sz arrs (t : tables V) m a b :
  laid_out sz arrs -> holds sz arrs t m -> (a < length arrs)%nat -> (b < length arrs)%nat ->
  shape (the arrs a) = shape (the arrs b) ->
  exists m', std_copy (pointer_ops V sz) (S (N.to_nat (volume (shape (the arrs a))))) m
      (base (the arrs b)) (plain_end sz (the arrs b)) (base (the arrs a)) = Some (m', plain_end sz (the arrs a)) /\
    holds sz arrs (copy t a b) m' /\ (forall x, elsewhere sz arrs x -> m' x = m x).
Proof.
  intros L H Ha Hb S. pose proof (the_placed _ _ _ L Ha) as P. pose proof (the_placed _ _ _ L Hb) as Q.
  assert (Hz : 0 < sz) by apply L. exists (assign sz (the arrs a) (the arrs b) m). split.
  - rewrite !placed_end by assumption. rewrite !block_end, <- S. rewrite pointer_copy.
    + unfold assign. now rewrite (placed_total sz _ Hz P).
    + exact Hz.
    + lia.
    + rewrite N2Nat.id, S. apply Q.
    + rewrite N2Nat.id. apply P.
  - now apply assign_holds.
Qed.
Print Assumptions C96_plain_copy.

Theorem C96_plain_swap {V} sz arrs (t : tables V) m a b :
  laid_out sz arrs -> holds sz arrs t m -> (a < length arrs)%nat -> (b < length arrs)%nat ->
  shape (the arrs a) = shape (the arrs b) ->
  exists m' x, std_swap_ranges (pointer_ops V sz) (S (N.to_nat (volume (shape (the arrs a))))) m
      (base (the arrs a)) (plain_end sz (the arrs a)) (base (the arrs b)) = Some (m', x) /\
    holds sz arrs (exchange t a b) m' /\ (forall x, elsewhere sz arrs x -> m' x = m x).
Proof.
  intros L H Ha Hb S. destruct (swap_holds sz arrs L t m a b Ha Hb S H) as (m' & E & H1 & H2).
  unfold swap in E. rewrite (placed_total sz (the arrs a)) in E by (apply L || now apply the_placed).
  destruct (pointer_swap_ranges _ _ _ _ _ _ _ E) as [x X]. eauto.
Qed.
Print Assumptions C96_plain_swap.

(* std::copy over the rows of any container of two or more dimensions moves no
   element, wherever the rows are to go, and its result is the end of the source. *)
Theorem C96_rows_not_copied {V} k sz c n step fuel (m : mem V) d :
  with_rows k sz c n step -> (N.to_nat n < fuel)%nat ->
  std_copy (row_ops V k sz) fuel m (it_begin k sz c) (it_end k sz c) d =
    Some (m, if n =? 0 then d else it_end k sz c).
Proof. apply row_copy. Qed.
Print Assumptions C96_rows_not_copied.

(* std::swap_ranges over an even number of rows moves no element; over an odd number
   it does not come to an end before it has gone through the address space. *)
Theorem C96_rows_not_swapped {V} k sz c c' n step step' (m : mem V) :
  with_rows k sz c n step -> with_rows k sz c' n step' ->
  (N.even n = true -> p_ptr c + n * step <= p_ptr c' \/ p_ptr c' + n * step' <= p_ptr c ->
   forall fuel, (N.to_nat n < fuel)%nat ->
   std_swap_ranges (row_ops V k sz) fuel m (it_begin k sz c) (it_end k sz c) (it_begin k sz c') =
     Some (m, it_end k sz c')) /\
  (N.odd n = true -> p_ptr c + n * step <= p_ptr c' ->
   forall fuel, p_ptr c + N.of_nat fuel * step < 2 ^ 64 -> p_ptr c' + N.of_nat fuel * step' < 2 ^ 64 ->
   std_swap_ranges (row_ops V k sz) fuel m (it_begin k sz c) (it_end k sz c) (it_begin k sz c') = None).
Proof.
  intros W W'. split.
  - intros E A fuel F. rewrite (it_end_row k sz c n step W), (it_end_row k sz c' n step' W'). unfold it_begin.
    apply N.even_spec in E as [h ->].
    apply (row_swap_even k sz c (2 * h) step c' step' W W' A (N.to_nat h)); lia.
  - intros O A fuel B B'. now apply (row_swap_odd k sz c n step c' step').
Qed.
Print Assumptions C96_rows_not_swapped.

(* std::reverse over rows moves no element. *)
Theorem C96_rows_not_reversed {V} k sz c n step fuel (m : mem V) :
  with_rows k sz c n step -> step <= p_ptr c -> (1 < fuel)%nat ->
  std_reverse (row_ops V k sz) fuel m (it_begin k sz c) (it_end k sz c) = Some m.
Proof. apply row_reverse. Qed.
Print Assumptions C96_rows_not_reversed.

(* The rows of an array_nd are such rows. *)
Theorem C96_array_rows sz a e r :
  0 < sz -> placed sz a -> shape a = e :: r -> r <> [] ->
  with_rows Plain sz (vector_proxy (base a) (shape a)) e (row_stored sz r) /\
  forall i is, in_range (shape a) (i :: is) ->
    nested Plain sz (sub_view Plain sz (vector_proxy (base a) (shape a)) i) is = plain_at sz a (row_major (shape a) (i :: is)).
Proof.
  intros Hz P S Nr. pose proof P as (E & Po & B). split.
  - replace (row_stored sz r) with (volume r * sz); [now apply array_with_rows|].
    rewrite S in *. inversion Po as [|? ? Pe Po']; subst. change (volume (e :: r)) with (e * volume r) in B.
    unfold row_stored, mul64. rewrite shape_total_exact; [|exact Nr|exact Po'|nia]. symmetry. apply w64_small. nia.
  - intros i is R. rewrite plain_spec; [|exact Hz|exact P|now apply row_major_lt]. unfold cell.
    rewrite <- (vector_access sz (base a) (shape a) (i :: is)); [|exact E|exact Hz|exact R|lia].
    destruct is as [|j is]; [|reflexivity]. rewrite S in R. inversion R as [|? ? ? ? _ R']; subst. inversion R'; subst. congruence.
Qed.
Print Assumptions C96_array_rows.

(* So copying the rows of one array_nd into another, as the iterators promise, fails:
   the call returns, and the target still differs. *)
Theorem C96_rows_copied_refuted :
  exists (m m' : mem nat) x,
    laid_out 8 two /\ shape (the two 0) = shape (the two 1) /\
    std_copy (row_ops nat Plain 8) 3 m (it_begin Plain 8 (vector_proxy 4096 [2; 3]))
      (it_end Plain 8 (vector_proxy 4096 [2; 3])) (it_begin Plain 8 (vector_proxy 8192 [2; 3])) = Some (m', x) /\
    m' (plain_at 8 (the two 1) 0) <> m (plain_at 8 (the two 0) 0).
Proof.
  exists (fun a => N.to_nat (a / 4096)).
  do 2 eexists. split; [exact two_laid_out|]. split; [reflexivity|]. split; [vm_compute; reflexivity|]. vm_compute. discriminate.
Qed.
Print Assumptions C96_rows_copied_refuted.

(* and swapping the rows of two arrays of three rows does not stop *)
Theorem C96_swap_stops_refuted :
  exists c c' : proxy, with_rows Plain 8 c 3 16 /\ with_rows Plain 8 c' 3 16 /\
    forall fuel (m : mem nat), N.of_nat fuel < 2 ^ 59 ->
    std_swap_ranges (row_ops nat Plain 8) fuel m (it_begin Plain 8 c) (it_end Plain 8 c) (it_begin Plain 8 c') = None.
Proof.
  exists (vector_proxy 4096 [3; 2]), (vector_proxy 8192 [3; 2]).
  assert (W : forall b, b = 4096 \/ b = 8192 -> with_rows Plain 8 (vector_proxy b [3; 2]) 3 16).
  { intros b Hb. exists (Desc 3 6 6), (Desc 2 2 2), []. repeat split; try reflexivity. destruct Hb; subst; reflexivity. }
  split; [apply W; now left|]. split; [apply W; now right|]. intros fuel m F.
  apply (C96_rows_not_swapped Plain 8 (vector_proxy 4096 [3; 2]) (vector_proxy 8192 [3; 2]) 3 16 16 m);
    [apply W; now left|apply W; now right|reflexivity|vm_compute; discriminate|cbn [p_ptr vector_proxy]; lia|cbn [p_ptr vector_proxy]; lia].
Qed.
Print Assumptions C96_swap_stops_refuted.

Example C96_ex_plain :
  exists m', std_copy (pointer_ops nat 8) 7 (fun a => N.to_nat (a / 4096)) 4096 4144 8192 = Some (m', 8240) /\
    map m' [8192; 8232; 8240; 4096] = [1; 1; 2; 1]%nat.
Proof. eexists. split; vm_compute; reflexivity. Qed.
Example C96_ex_rows :
  let c := vector_proxy 4096 [2; 3] in
  with_rows Plain 8 c 2 24 /\
  option_map snd (std_copy (row_ops nat Plain 8) 3 (fun _ => 0%nat) (it_begin Plain 8 c) (it_end Plain 8 c) (vector_proxy 0 [])) =
    Some (it_end Plain 8 c).
Proof.
  split; [|vm_compute; reflexivity]. exists (Desc 2 6 6), (Desc 3 3 3), []. repeat split; reflexivity.
Qed.
