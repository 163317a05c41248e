(* C15 filter, C16 zip, C17 pipelines of range members. *)
From Coq Require Import ZArith List Bool Lia.
From Verif Require Import RangeModel RangeSpec RangeProofs RangePipe RangeMisc.
Import ListNotations.
Local Open Scope Z_scope.

(* ================= C15 ================= *)

(* A loop over a filtered range meets exactly the matching elements, in order. *)
Theorem C15_filter_list : forall A (p : A -> bool) d (q : pipe A),
  sound (Filter d p q) ->
  exists F, forall f, (F <= f)%nat ->
  exists r, eval f (Filter d p q) = Ok r /\ rlist f r = Ok (filter p (meaning q)).
Proof. intros A p d q S. exact (pipe_list (Filter d p q) S). Qed.
Print Assumptions C15_filter_list.

(* Any sequence of ++ and -- that stays between begin and end puts the iterator
   on the matching element of that index; it equals end exactly at the end. *)
Theorem C15_filter_walk : forall A (p : A -> bool) d (q : pipe A),
  sound (Filter d p q) ->
  exists F, forall f, (F <= f)%nat ->
  exists r, eval f (Filter d p q) = Ok r /\
  forall w k, follow (two_way q) (length (filter p (meaning q))) 0 w = Some k ->
  exists s, walk f (iter r) w (rfirst r) = Ok s /\
    (forall a, nth_error (filter p (meaning q)) k = Some a -> deref (iter r) f s = Ok a) /\
    ne (iter r) s (rlast r) = negb (Nat.eqb k (length (filter p (meaning q)))).
Proof.
  intros A p d q S. destruct (pipe_walk (Filter d p q) S) as (F & H). exists F. intros f Lf.
  destruct (H f Lf) as (r & E & G). exists r. split; [exact E|]. intros w k W.
  destruct (G w k W) as (s & Es & D & N & _). exists s. repeat split; assumption.
Qed.
Print Assumptions C15_filter_walk.

(* A filter without an end stops at the next match, or runs off the container. *)
Theorem C15_filter_without_end : forall A (p : A -> bool) c (l : list A) k f n,
  (k <= length l)%nat -> (length l - k < f)%nat ->
  seek p (container_iter c l) f n (Z.of_nat k) =
  match find (fun j => match nth_error l j with Some a => p a | None => false end)
             (seq k (length l - k)) with
  | Some j => Ok (Z.of_nat j)
  | None => Bad
  end.
Proof. intros A p c l k f n L Lf. apply seek_container; [reflexivity|exact L|exact Lf]. Qed.
Print Assumptions C15_filter_without_end.

(* The caching policy: with elements kept on the heap the end iterator has no
   element, and copying it dereferences a null pointer, so no loop works. *)
Theorem C15_heap_cache_refuted : exists (p : Z -> bool) (q : pipe Z),
  sound q /\ meaning q = [1; 2; 3] /\
  exists F, forall f, (F <= f)%nat ->
  (do r <- eval f (Filter (Cache CHeap) p q); rlist f r) = Bad.
Proof.
  exists Z.odd, (Container RandomAccess [1; 2; 3] 0 3). split; [cbn; lia|]. split; [reflexivity|].
  apply heap_cache_never. cbn. lia.
Qed.
Print Assumptions C15_heap_cache_refuted.

(* This holds for every sequence and predicate. *)
Theorem C15_heap_cache_never_works : forall A (p : A -> bool) (q : pipe A), sound q ->
  exists F, forall f, (F <= f)%nat ->
  (do r <- eval f (Filter (Cache CHeap) p q); rlist f r) = Bad.
Proof. exact heap_cache_never. Qed.
Print Assumptions C15_heap_cache_never_works.

(* Kept in place, the first assignment to the cache destroys an object that was
   never constructed. *)
Theorem C15_stack_cache_refuted : exists (p : Z -> bool) (q : pipe Z),
  sound q /\ meaning q = [1; 2; 3] /\
  exists F, forall f, (F <= f)%nat -> eval f (Filter (Cache CStack) p q) = Bad.
Proof.
  exists Z.odd, (Container RandomAccess [1; 2; 3] 0 3). split; [cbn; lia|]. split; [reflexivity|].
  apply stack_cache_never. cbn. lia.
Qed.
Print Assumptions C15_stack_cache_refuted.

Theorem C15_stack_cache_never_works : forall A (p : A -> bool) (q : pipe A), sound q ->
  exists F, forall f, (F <= f)%nat -> eval f (Filter (Cache CStack) p q) = Bad.
Proof. exact stack_cache_never. Qed.
Print Assumptions C15_stack_cache_never_works.

Example C15_example :
  let q := Container Bidirectional [5; 2; 7; 8; 9; 4] 1 6 in
  sound (Filter NoCache Z.odd q) /\ filter Z.odd (meaning q) = [7; 9] /\
  (exists r, eval 20 (Filter NoCache Z.odd q) = Ok r /\ rlist 20 r = Ok [7; 9] /\
   follow (two_way q) 2 0 [true; true; false; false; true] = Some 1%nat /\
   match walk 20 (iter r) [true; true; false; false; true] (rfirst r) with
   | Ok s => deref (iter r) 20 s = Ok 9 | _ => False end).
Proof. cbv zeta. split; [cbn; lia|]. split; [reflexivity|]. eexists. split; [reflexivity|]. vm_compute. repeat split. Qed.

Example C15_without_end_example :
  seek Z.odd (container_iter RandomAccess [2; 4; 5; 6]) 5 0 0 = Ok 2 /\
  seek Z.odd (container_iter RandomAccess [2; 4; 5; 6]) 5 0 3 = Bad.
Proof. split; reflexivity. Qed.

(* ================= C16 ================= *)

(* Zipping any number of ranges of equal length gives the tuples of elements at
   equal positions. *)
Theorem C16_zip_list : forall A B (p : pipe A) (qs : pipes B),
  sound p -> sounds (length (meaning p)) qs ->
  exists F, forall f, (F <= f)%nat ->
  exists r, eval f (Zip p qs) = Ok r /\
  rlist f r = Ok (combine (meaning p) (meanings (length (meaning p)) qs)) /\
  rdistance f r = Ok (Z.of_nat (length (meaning p))).
Proof.
  intros A B p qs S Ss.
  assert (SS : sound (Zip p qs)) by (split; assumption).
  destruct (pipe_list (Zip p qs) SS) as (F & H). destruct (pipe_distance (Zip p qs) SS) as (G & H').
  exists (F + G)%nat. intros f Lf.
  destruct (H f ltac:(lia)) as (r & E & L). destruct (H' f ltac:(lia)) as (r' & E' & D).
  assert (r' = r) by congruence. subst r'. exists r. split; [exact E|]. split; [exact L|].
  rewrite D. f_equal. f_equal. cbn [meaning]. rewrite combine_length.
  destruct (proj2 eval_good B qs _ Ss) as (K & Q). destruct (Q K ltac:(lia)) as (z & R & _ & _ & _ & _ & Ln & _).
  rewrite Ln, Nat.min_id. reflexivity.
Qed.
Print Assumptions C16_zip_list.

(* Each tuple holds the elements found at one position of both ranges. *)
Theorem C16_zip_pairs : forall A B (p : pipe A) (q : pipe B),
  sound p -> sound q -> length (meaning q) = length (meaning p) ->
  exists F, forall f, (F <= f)%nat ->
  exists r l, eval f (zip2 p q) = Ok r /\ rlist f r = Ok l /\
  length l = length (meaning p) /\
  forall k a b, nth_error (meaning p) k = Some a -> nth_error (meaning q) k = Some b ->
    nth_error l k = Some (a, (b, tt)).
Proof.
  intros A B p q Sp Sq L.
  destruct (C16_zip_list A (B * unit) p (ZCons q ZNil) Sp (conj Sq (conj L I))) as (F & H).
  exists F. intros f Lf. destruct (H f Lf) as (r & E & Q & _). exists r. eexists.
  split; [exact E|]. split; [exact Q|]. cbn [meanings].
  rewrite !combine_length, repeat_length, L. split; [lia|].
  clear.
  assert (G : forall (xs : list A) (ys : list B) k a b m, nth_error xs k = Some a -> nth_error ys k = Some b ->
     (k < m)%nat -> nth_error (combine xs (combine ys (repeat tt m))) k = Some (a, (b, tt))).
  { induction xs as [|x xs IH]; intros [|y ys] [|k] a b [|m] Ha Hb Hm; cbn in *; try discriminate; try lia.
    - congruence.
    - apply IH; try assumption. lia. }
  intros k a b Ha Hb. apply G; try assumption.
  assert (K : (k < length (meaning p))%nat) by (apply nth_error_Some; rewrite Ha; discriminate).
  exact K.
Qed.
Print Assumptions C16_zip_pairs.

(* Different lengths: at the end of the shorter range, and before it, the
   iterator still differs from end. *)
Theorem C16_does_not_stop_at_the_shorter : forall A B (p : pipe A) (q : pipe B),
  sound p -> sound q -> length (meaning p) <> length (meaning q) ->
  exists F, forall f, (F <= f)%nat -> exists r, eval f (zip2 p q) = Ok r /\
  forall d, (d <= length (meaning p))%nat -> (d <= length (meaning q))%nat ->
  exists s, walk f (iter r) (repeat true d) (rfirst r) = Ok s /\ ne (iter r) s (rlast r) = true.
Proof. exact zip_not_stopping. Qed.
Print Assumptions C16_does_not_stop_at_the_shorter.

(* With two containers of different lengths every loop reads past the shorter. *)
Theorem C16_different_lengths_read_past_the_end : forall A B c d (l : list A) (m : list B),
  length l <> length m ->
  forall f, (Nat.min (length l) (length m) < f)%nat ->
  (do r <- eval f (zip2 (Container c l 0 (Z.of_nat (length l))) (Container d m 0 (Z.of_nat (length m))));
   rlist f r) = Bad.
Proof.
  intros A B c d l m D f Lf.
  exact (zip_elements_bad A B c d l m f D f 0%nat ltac:(lia) ltac:(lia) ltac:(lia)).
Qed.
Print Assumptions C16_different_lengths_read_past_the_end.

Theorem C16_stops_at_the_shorter_refuted : exists (p q : pipe Z),
  sound p /\ sound q /\
  exists F, forall f, (F <= f)%nat -> (do r <- eval f (zip2 p q); rlist f r) = Bad.
Proof.
  exists (Container RandomAccess [1; 2; 3] 0 3), (Container RandomAccess [4; 5] 0 2).
  split; [cbn; lia|]. split; [cbn; lia|]. exists 3%nat. intros f Lf.
  apply (C16_different_lengths_read_past_the_end Z Z RandomAccess RandomAccess [1; 2; 3] [4; 5]); cbn; lia.
Qed.
Print Assumptions C16_stops_at_the_shorter_refuted.

Example C16_example :
  let p := Container RandomAccess [1; 2; 3] 0 3 in
  let q := Map (fun z => z * z) (Numeric (MkIty 32 true) 5 8) in
  let q' := Filter NoCache Z.odd (Container Forward [1; 3; 4; 5] 0 4) in
  sound p /\ sounds (length (meaning p)) (ZCons q (ZCons q' ZNil)) /\
  (do r <- eval 20 (Zip p (ZCons q (ZCons q' ZNil))); rlist 20 r) =
    Ok [(1, (25, (1, tt))); (2, (36, (3, tt))); (3, (49, (5, tt)))].
Proof.
  cbv zeta. split; [cbn; lia|]. split; [|reflexivity].
  cbn [sounds sound meaning]. repeat split; try (cbn; lia). right. left. cbn. split; [reflexivity|lia].
Qed.

(* ================= C17 ================= *)

(* Loops, to_list and to_vector produce the list the pipeline means. *)
Theorem C17_list : forall A (p : pipe A), sound p ->
  exists F, forall f, (F <= f)%nat ->
  exists r, eval f p = Ok r /\ rlist f r = Ok (meaning p).
Proof. exact @pipe_list. Qed.
Print Assumptions C17_list.

Theorem C17_vector : forall A (p : pipe A), sound p ->
  exists F, forall f, (F <= f)%nat ->
  exists r, eval f p = Ok r /\ rvector f r = Ok (meaning p).
Proof. exact @pipe_vector. Qed.
Print Assumptions C17_vector.

Theorem C17_distance : forall A (p : pipe A), sound p ->
  exists F, forall f, (F <= f)%nat ->
  exists r, eval f p = Ok r /\ rdistance f r = Ok (Z.of_nat (length (meaning p))).
Proof. exact @pipe_distance. Qed.
Print Assumptions C17_distance.

Theorem C17_empty : forall A (p : pipe A), sound p ->
  exists F, forall f, (F <= f)%nat ->
  exists r, eval f p = Ok r /\ rempty r = match meaning p with [] => true | _ => false end.
Proof. exact @pipe_empty. Qed.
Print Assumptions C17_empty.

Theorem C17_fold_left : forall A (p : pipe A), sound p ->
  forall B (g : B -> A -> B) z, exists F, forall f, (F <= f)%nat ->
  exists r, eval f p = Ok r /\ rfold_left f g z r = Ok (fold_left g (meaning p) z).
Proof. exact @pipe_fold_left. Qed.
Print Assumptions C17_fold_left.

(* fold_right needs two-way iterators whose elements live outside them. *)
Theorem C17_fold_right : forall A (p : pipe A), sound p -> two_way p = true -> outside p = true ->
  forall B (g : B -> A -> B) z, exists F, forall f, (F <= f)%nat ->
  exists r, eval f p = Ok r /\ rfold_right f g z r = Ok (fold_right (fun a b => g b a) z (meaning p)).
Proof. exact @pipe_fold_right. Qed.
Print Assumptions C17_fold_right.

(* Iterators can be moved about: every walk that stays inside lands on the
   element of its index, and comparison agrees with the indices. *)
Theorem C17_walk : forall A (p : pipe A), sound p ->
  exists F, forall f, (F <= f)%nat ->
  exists r, eval f p = Ok r /\
  forall w k, follow (two_way p) (length (meaning p)) 0 w = Some k ->
  exists s, walk f (iter r) w (rfirst r) = Ok s /\
    (forall a, nth_error (meaning p) k = Some a -> deref (iter r) f s = Ok a) /\
    (ne (iter r) s (rlast r) = negb (Nat.eqb k (length (meaning p)))) /\
    (forall w' j, follow (two_way p) (length (meaning p)) 0 w' = Some j ->
       exists s', walk f (iter r) w' (rfirst r) = Ok s' /\
       ne (iter r) s s' = negb (Nat.eqb k j) /\
       (cat (iter r) = RandomAccess -> lt (iter r) s s' = Nat.ltb k j)).
Proof. exact @pipe_walk. Qed.
Print Assumptions C17_walk.

(* Reversing a numeric range: the reference returned by std::reverse_iterator
   points into a temporary iterator. *)
Theorem C17_reverse_numeric_refuted : exists p : pipe Z,
  sound p /\ meaning p = [0; 1; 2] /\
  forall f, (0 < f)%nat -> (do r <- eval f (Reverse p); rlist f r) = Bad.
Proof.
  exists (Numeric (MkIty 32 true) 0 3). split.
  { cbn [sound]. repeat split; try (cbn; lia). right. left. cbn. split; [reflexivity|lia]. }
  split; [reflexivity|]. intros f Lf. apply numeric_reverse_bad; cbn; lia.
Qed.
Print Assumptions C17_reverse_numeric_refuted.

Theorem C17_reverse_numeric_never_works : forall t a b f,
  ilo t <= a -> a < b -> b <= ihi t -> (0 < f)%nat ->
  (do r <- eval f (Reverse (Numeric t a b)); rlist f r) = Bad.
Proof. exact numeric_reverse_bad. Qed.
Print Assumptions C17_reverse_numeric_never_works.

(* numeric_range(first, last) with first > last is not empty. *)
Theorem C17_backward_numeric_refuted : exists t a b,
  ilo t <= b /\ b < a /\ a <= ihi t /\ meaning (Numeric t a b) = [] /\
  exists r l, eval 300 (Numeric t a b) = Ok r /\ rlist 300 r = Ok l /\ length l = 254%nat.
Proof.
  exists (MkIty 8 false), 3, 1. repeat split; try (cbn; lia).
  eexists. eexists. split; [reflexivity|]. split; [vm_compute; reflexivity|reflexivity].
Qed.
Print Assumptions C17_backward_numeric_refuted.

(* For a signed type it runs into the overflow. *)
Theorem C17_backward_signed_refuted : exists t a b,
  sgn t = true /\ ilo t <= b /\ b < a /\ a <= ihi t /\ meaning (Numeric t a b) = [] /\
  forall f, (0 < f)%nat -> (do r <- eval f (Numeric t a b); rlist f r) = Bad.
Proof.
  exists (MkIty 32 true), (2 ^ 31 - 1), 5. repeat split; try (cbn; lia).
  intros f Lf. destruct f as [|f]; [lia|]. reflexivity.
Qed.
Print Assumptions C17_backward_signed_refuted.

(* distance() of a range over more than half of the int values overflows. *)
Theorem C17_wide_numeric_refuted : exists t a b,
  ilo t <= a /\ a <= b /\ b <= ihi t /\
  forall f, (do r <- eval f (Numeric t a b); rdistance f r) = Bad.
Proof.
  exists (MkIty 32 true), (- 2 ^ 31), (2 ^ 31 - 1). repeat split; try (cbn; lia).
Qed.
Print Assumptions C17_wide_numeric_refuted.

Example C17_example :
  let p := Tail (Reverse (Filter NoCache (fun z => z <? 50)
             (Map (fun z => z * z) (Numeric (MkIty 32 false) 4 9)))) in
  sound p /\ two_way p = true /\ outside p = true /\ meaning p = [36; 25; 16] /\
  (do r <- eval 30 p; rvector 30 r) = Ok [36; 25; 16] /\
  (do r <- eval 30 p; rfold_right 30 (fun acc z => 10 * acc + z) 1 r) = Ok 2886.
Proof.
  cbv zeta. split; [|repeat split].
  cbn [sound two_way outside]. repeat split; try (cbn; lia); try discriminate.
  right. right. split; [reflexivity|cbn; lia].
Qed.
