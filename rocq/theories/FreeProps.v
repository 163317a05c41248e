(* C123: programs over filter iterators without an end. *)
From Coq Require Import List Bool Arith Lia.
From Verif Require Import FreeModel FreeSpec FreeProofs.
Import ListNotations.
Set Default Proof Using "Type".

Definition none {X : Type} : nat -> option X := fun _ => None.

(* A program does what it means, whatever the policy and however long it is let run: a search
   that finds nothing in an infinite sequence does not end. *)
Theorem C123_program {V} pol (s : nat -> option V) os out :
  tells V s os none out -> exists k0, forall k, k0 <= k -> run V pol s k os none = out.
Proof.
  intros T. destruct (tells_run pol s os none out T) as (k0 & K). exists k0. intros k L. apply K; [exact L|]. intros x. exact I.
Qed.
Print Assumptions C123_program.

(* What ends, ends as the program means. *)
Theorem C123_ends {V} pol (s : nat -> option V) os l e : e <> Forever ->
  ((exists k, run V pol s k os none = (l, e)) <-> tells V s os none (l, e)).
Proof.
  intros N. split.
  - intros (k & H). apply (run_tells pol s k os none none l e); [intros x; exact I|exact H|exact N].
  - intros T. destruct (C123_program pol s os (l, e) T) as (k & K). exists k. now apply K.
Qed.
Print Assumptions C123_ends.

(* Caching is not noticed. *)
Theorem C123_policies {V} pol pol' (s : nat -> option V) os l e : e <> Forever ->
  (exists k, run V pol s k os none = (l, e)) -> exists k0, forall k, k0 <= k -> run V pol' s k os none = (l, e).
Proof.
  intros N H. apply C123_program. now apply (C123_ends pol).
Qed.
Print Assumptions C123_policies.

(* Making an iterator ends exactly if, from there on, an element is accepted or the sequence
   runs out. *)
Theorem C123_search {V} pol (s : nat -> option V) x b p :
  ((exists k, snd (run V pol s k [Make x b p] none) <> Forever) <-> exists r, b <= r /\ ~ rejected V s p r) /\
  ((forall r, b <= r -> rejected V s p r) -> forall k, run V pol s k [Make x b p] none = ([], Forever)).
Proof.
  assert (F : forall k, (forall r, b <= r -> rejected V s p r) -> run V pol s k [Make x b p] none = ([], Forever)).
  { intros k H. cbn [run exec]. pose proof (forward_sound pol s k b p None) as X. unfold landed.
    destruct (skip_forward V pol s k b p None) as [[r c]| |]; cbn [bind]; [| |reflexivity]; exfalso.
    - destruct X as ((L & _ & A) & _). exact (accept_reject s p r A (H r L)).
    - destruct X as (r & L & _ & A). exact (none_reject s p r A (H r L)). }
  split; [|intros H k; now apply F]. split.
  - intros (k & H). cbn [run exec] in H. pose proof (forward_sound pol s k b p None) as X. unfold landed in H.
    destruct (skip_forward V pol s k b p None) as [[r c]| |]; cbn [bind snd] in H; [| |congruence].
    + destruct X as ((L & _ & A) & _). exists r. split; [exact L|]. intros R. exact (accept_reject s p r A R).
    + destruct X as (r & L & _ & A). exists r. split; [exact L|]. intros R. exact (none_reject s p r A R).
  - intros (r & L & N). exists (S (r - b)). cbn [run exec]. pose proof (forward_sound pol s (S (r - b)) b p None) as X. unfold landed.
    destruct (skip_forward V pol s (S (r - b)) b p None) as [[q c]| |]; cbn [bind snd]; [discriminate|discriminate|].
    exfalso. apply N. apply X. lia.
Qed.
Print Assumptions C123_search.

(* Such an iterator of a finite sequence has no end to compare with: ++ at the last accepted
   element reads past the sequence. *)
Theorem C123_past_refuted : exists (l : list nat) os, forall pol k, 3 <= k ->
  run nat pol (nth_error l) k os none = ([Nothing; Value 2], Undefined) /\ os = [Make 0 0 Nat.even; Read 0; Inc 0].
Proof.
  exists [2; 3], [Make 0 0 Nat.even; Read 0; Inc 0]. intros pol k L. split; [|reflexivity].
  destruct k as [|[|[|k]]]; try lia. destruct pol; reflexivity.
Qed.
Print Assumptions C123_past_refuted.

(* the numbers from 0 on *)
Example C123_program_example : forall pol,
  run nat pol Some 9 [Make 0 1 Nat.even; Read 0; PostInc 1 0; Read 0; Read 1; Copy 2 0; Dec 2; Same 1 2; SameAs 0 4;
                      Make 3 0 (fun v => 7 <? v); Swap 0 3; Read 0; Inc 0; Move 4 0; Differ 4 3; Read 4; PostDec 5 4; Read 5; Dec 4] none =
  ([Nothing; Value 2; Nothing; Value 4; Value 2; Nothing; Nothing; Answer true; Answer true;
    Nothing; Nothing; Value 8; Nothing; Nothing; Answer true; Value 9; Nothing; Value 9], Undefined).
Proof. intros []; vm_compute; reflexivity. Qed.
(* nothing is accepted after 4 *)
Example C123_hangs_example :
  tells nat Some [Make 0 1 (fun v => v <? 5); Inc 0; Read 0; Inc 0; Inc 0; Inc 0; Read 0] none
    ([Nothing; Nothing; Value 2; Nothing; Nothing], Forever).
Proof.
  assert (A : forall q, q < 5 -> ahead nat Some (fun v => v <? 5) q (At q)).
  { intros q L. split; [lia|]. split; [intros i H; lia|]. exists q. split; [reflexivity|]. now apply Nat.ltb_lt. }
  eapply T_step; [exists (At 1); split; [apply A; lia|reflexivity]|].
  eapply T_step; [exists (At 2); split; [apply A; lia|reflexivity]|].
  eapply T_step; [reflexivity|].
  eapply T_step; [exists (At 3); split; [apply A; lia|reflexivity]|].
  eapply T_step; [exists (At 4); split; [apply A; lia|reflexivity]|].
  apply T_hangs. exists Never. split; [|reflexivity]. intros i L. exists i. split; [reflexivity|]. apply Nat.ltb_ge. exact L.
Qed.
