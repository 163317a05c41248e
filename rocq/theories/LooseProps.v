(* C125: filter iterators with an end converted to ones without. *)
From Coq Require Import List Bool Arith Lia.
From Verif Require FiltModel.
From Verif Require Import FreeModel FreeSpec FreeProofs LooseModel LooseProofs.
Import ListNotations.
Set Default Proof Using "Type".

(* what  v = *x; ++x;  shows for each element of a list *)
Definition visits {V} (l : list V) : list (seen V) := flat_map (fun v => [Value v; Nothing]) l.

Lemma visited {V} kept c (m : list V) p q a j t : nth_error m q = Some a -> p a = true -> pos j = q -> pred j = p ->
  (c = true -> cached j = nth_error m q) ->
  exists k0, forall k, k0 <= k ->
    run V (endless kept c) (nth_error m) k (tour V t) (only V j) =
    let l := filter p (skipn q m) in
    if t <? length l then (visits (firstn t l), Finished) else (removelast (visits l), Undefined).
Proof.
  intros A PA Q P C. rewrite (skipn_at m _ a A). cbn [filter]. rewrite PA. set (l := filter p (skipn (S q) m)).
  assert (R : rel (endless kept c) (nth_error m) (is V (fun _ => None) 0 (Some (q, p))) (only V j)).
  { apply rel_set; [intros x; exact I|]. split; [exact Q|]. split; [exact P|]. intros K.
    destruct c; [|now cbn in K]. rewrite (C eq_refl), A. split; [reflexivity|discriminate]. }
  destruct (tells_run (endless kept c) (nth_error m) _ _ _ (tour_tells m p t q a l (is V (fun _ => None) 0 (Some (q, p))) eq_refl A eq_refl)) as (k0 & H).
  exists k0. intros k L. rewrite (H k _ L R). cbv zeta. cbn [length].
  replace (t <? S (length l)) with (t <=? length l) by reflexivity. destruct (t <=? length l); [reflexivity|]. f_equal.
  change (shown (removelast (a :: l)) ++ [Value (last l a)] = removelast (visits (a :: l))).
  clear. revert a. induction l as [|v l IH]; intros a; [reflexivity|]. specialize (IH v).
  change (removelast (a :: v :: l)) with (a :: removelast (v :: l)).
  change (removelast (visits (a :: v :: l))) with (Value a :: Nothing :: removelast (visits (v :: l))). rewrite <- IH.
  cbn [shown flat_map app]. do 4 f_equal. clear. revert a v. induction l as [|u l IH]; intros a v; [reflexivity|].
  cbn [last] in *. destruct l; [reflexivity|]. apply (IH a v).
Qed.

(* However the iterator came to be where it is, short of its end: converted, it visits the
   accepted elements from there to the end of the container, not to its own end, and the ++ at
   the last of them is undefined. *)
Theorem C125_goes_on {V} kept c c' (m : list V) b e p ds i : made V kept c' m b e p ds = Some i -> FiltModel.pos i <> e ->
  (c = true -> c' = true) ->
  exists j, drop V kept c c' i = Done j /\ forall t, exists k0, forall k, k0 <= k ->
    run V (endless kept c) (nth_error m) k (tour V t) (only V j) =
    let l := filter p (skipn (FiltModel.pos i) m) in
    if t <? length l then (visits (firstn t l), Finished) else (removelast (visits l), Undefined).
Proof.
  intros M N CC. destruct (made_sits kept c' m b e p ds i M) as (_ & P & S). destruct (S N) as ((a & A & PA) & C). clear S.
  set (j := FreeModel.Iter (FiltModel.pos i) p (if c && c' then FiltModel.cached i else None)).
  exists j. split.
  { unfold drop, j. rewrite P. destruct c; cbn [andb]; [|reflexivity]. rewrite (CC eq_refl) in *. rewrite (C eq_refl), A. destruct kept; reflexivity. }
  intros t. apply (visited kept c m p (FiltModel.pos i) a j t); [exact A|exact PA|reflexivity|reflexivity|].
  intros ->. cbn [cached j]. rewrite (CC eq_refl) in *. cbn [andb]. exact (C eq_refl).
Qed.
Print Assumptions C125_goes_on.

(* Indeed any program over the converted iterator, and others made from then on, does what it means
   for an iterator that never had an end. *)
Theorem C125_program {V} kept c c' (m : list V) b e p ds i : made V kept c' m b e p ds = Some i -> FiltModel.pos i <> e ->
  (c = true -> c' = true) ->
  exists j, drop V kept c c' i = Done j /\ forall os out, tells V (nth_error m) os (is V (fun _ => None) 0 (Some (FiltModel.pos i, p))) out ->
    exists k0, forall k, k0 <= k -> run V (endless kept c) (nth_error m) k os (only V j) = out.
Proof.
  intros M N CC. destruct (made_sits kept c' m b e p ds i M) as (_ & P & S). destruct (S N) as ((a & A & PA) & C). clear S.
  set (j := FreeModel.Iter (FiltModel.pos i) p (if c && c' then FiltModel.cached i else None)).
  exists j. split.
  { unfold drop, j. rewrite P. destruct c; cbn [andb]; [|reflexivity]. rewrite (CC eq_refl) in *. rewrite (C eq_refl), A. destruct kept; reflexivity. }
  intros os out T. destruct (tells_run (endless kept c) (nth_error m) _ _ _ T) as (k0 & H). exists k0. intros k L. apply (H k _ L).
  apply rel_set; [intros x; exact I|]. split; [reflexivity|]. split; [reflexivity|]. intros K. cbn [cached j].
  destruct c; [|now cbn in K]. rewrite (CC eq_refl) in *. cbn [andb]. rewrite (C eq_refl), A. split; [reflexivity|discriminate].
Qed.
Print Assumptions C125_program.
Example C125_program_ex : exists i j, made nat true true [1; 2; 4; 5; 6] 0 4 Nat.even [true] = Some i /\ drop nat true true true i = Done j /\
  tells nat (nth_error [1; 2; 4; 5; 6]) [Copy 1 0; Read 1; Same 0 1] (is nat (fun _ => None) 0 (Some (FiltModel.pos i, Nat.even))) ([Nothing; Value 4; Answer true], Finished) /\
  run nat (endless true true) (nth_error [1; 2; 4; 5; 6]) 9 [Copy 1 0; Read 1; Same 0 1] (only nat j) = ([Nothing; Value 4; Answer true], Finished).
Proof.
  eexists. eexists. split; [reflexivity|]. split; [reflexivity|]. split; [|reflexivity].
  econstructor; [reflexivity|]. econstructor; [reflexivity|]. econstructor; [reflexivity|]. constructor.
Qed.

(* Assigned, it does the same, whatever the target was. *)
Theorem C125_assigned {V} kept c c' (m : list V) b e p ds i j t : made V kept c' m b e p ds = Some i -> FiltModel.pos i <> e ->
  (c = true -> c' = true) ->
  exists k0, forall k, k0 <= k ->
    run V (endless kept c) (nth_error m) k (tour V t) (only V (assign V c c' j i)) =
    let l := filter p (skipn (FiltModel.pos i) m) in
    if t <? length l then (visits (firstn t l), Finished) else (removelast (visits l), Undefined).
Proof.
  intros M N CC. destruct (made_sits kept c' m b e p ds i M) as (_ & P & S). destruct (S N) as ((a & A & PA) & C). clear S.
  apply (visited kept c m p (FiltModel.pos i) a (assign V c c' j i) t); [exact A|exact PA|reflexivity|exact P|].
  intros ->. unfold assign. cbn [cached]. rewrite (CC eq_refl) in *. cbn [andb]. exact (C eq_refl).
Qed.
Print Assumptions C125_assigned.

(* A caching iterator that is assigned a temporary that does not cache goes on reading the element
   it had. *)
Theorem C125_stale {V} kept (m : list V) j i k :
  run V (endless kept true) (nth_error m) k [Read 0] (only V (assign V true false j i)) =
  run V (endless kept true) (nth_error m) k [Read 0] (only V j).
Proof. destruct kept; cbn; destruct (cached j); reflexivity. Qed.
Print Assumptions C125_stale.

(* A caching iterator made from a non-caching one has nothing to read; made from a caching one
   that has not looked at an element, it has nothing to read either, or cannot even be made. *)
Theorem C125_blank {V} kept (m : list V) i k :
  (exists j, drop V kept true false i = Done j /\ run V (endless kept true) (nth_error m) k [Read 0] (only V j) = ([], Undefined)) /\
  (FiltModel.cached i = None ->
    match drop V kept true true i with
    | Done j => kept = false /\ run V (endless kept true) (nth_error m) k [Read 0] (only V j) = ([], Undefined)
    | Bad => kept = true
    | Fuel => False
    end).
Proof.
  split.
  - eexists. split; [reflexivity|]. destruct kept; reflexivity.
  - intros H. unfold drop. rewrite H. destruct kept; cbn; auto.
Qed.
Print Assumptions C125_blank.

(* So the end of the range is not kept. *)
Theorem C125_end_refuted : exists (m : list nat) p i, forall kept c, exists i', made nat kept c m 0 2 p [] = Some i' /\
  FiltModel.pos i' = i /\ FiltModel.forward nat (ended kept c) m i' <> None /\
  option_map FiltModel.pos (FiltModel.forward nat (ended kept c) m i') = Some 2 /\
  exists j, drop nat kept c c i' = Done j /\
    run nat (endless kept c) (nth_error m) 9 [Read 0; Inc 0; Read 0; Inc 0] (only nat j) = ([Value 2; Nothing; Value 4], Undefined).
Proof.
  exists [2; 1; 3; 4], Nat.even, 0. intros kept c.
  destruct kept, c; (eexists; split; [reflexivity|]; split; [reflexivity|]; split; [discriminate|]; split; [reflexivity|]; eexists; split; reflexivity).
Qed.
Print Assumptions C125_end_refuted.

(* And a caching iterator at its end, converted, reads an element that the predicate rejects. *)
Theorem C125_rejected_refuted : exists (m : list nat) p v, p v = false /\ forall kept, exists i j, made nat kept true m 0 2 p [] = Some i /\
  drop nat kept true true i = Done j /\ run nat (endless kept true) (nth_error m) 9 [Read 0] (only nat j) = ([Value v], Finished).
Proof.
  exists [1; 3], Nat.even, 3. split; [reflexivity|]. intros kept. destruct kept; (eexists; eexists; split; [reflexivity|]; split; reflexivity).
Qed.
Print Assumptions C125_rejected_refuted.

Example C125_goes_on_ex : exists i, made nat true true [1; 2; 4; 5; 6] 0 4 Nat.even [true; true; false] = Some i /\ FiltModel.pos i = 2 /\
  exists j, drop nat true false true i = Done j /\
  run nat (endless true false) (nth_error [1; 2; 4; 5; 6]) 9 (tour nat 1) (only nat j) = ([Value 4; Nothing], Finished) /\
  run nat (endless true false) (nth_error [1; 2; 4; 5; 6]) 9 (tour nat 7) (only nat j) = ([Value 4; Nothing; Value 6], Undefined).
Proof. eexists. split; [reflexivity|]. split; [reflexivity|]. eexists. split; [reflexivity|]. split; reflexivity. Qed.
Example C125_blank_ex : exists i, made nat true true [1; 2] 1 1 Nat.even [] = Some i /\ FiltModel.cached i = None /\ drop nat true true true i = Bad.
Proof. eexists. split; [reflexivity|]. split; reflexivity. Qed.
Example C125_assigned_ex : exists i, made nat false true [1; 2; 4; 5; 6] 0 4 Nat.even [true; true; false] = Some i /\
  let j := FreeModel.Iter 0 Nat.odd (Some 1) in
  run nat (endless false true) (nth_error [1; 2; 4; 5; 6]) 9 (tour nat 7) (only nat (assign nat true true j i)) = ([Value 4; Nothing; Value 6], Undefined) /\
  run nat (endless false true) (nth_error [1; 2; 4; 5; 6]) 9 [Read 0] (only nat (assign nat true false j i)) = ([Value 1], Finished).
Proof. eexists. split; [reflexivity|]. split; reflexivity. Qed.
