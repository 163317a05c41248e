(* C121: programs over filter iterators. *)
From Coq Require Import List Bool Arith Lia.
From Verif Require Import FiltModel FiltSpec FiltProofs.
Import ListNotations.
Set Default Proof Using "Type".

Definition fresh {V} (m : list V) : world V := World (fun _ => None) m.

(* Without caching any program over filter iterators, with any predicates and any parts of a
   container, does what it means for positions: exactly the same is defined, seen and stored. *)
Theorem C121_program {V} (os : list (fop V)) (m : list V) :
  run V Plain os (fresh m) = story V os (Sheet (fun _ => None) m).
Proof.
  apply story_run. split; [reflexivity|]. split; [reflexivity|]. intros x i H. discriminate H.
Qed.
Print Assumptions C121_program.

(* Filter iterators of a whole sequence that is not written are the numbers of the elements of
   the filtered list: again exactly the same is defined and seen, and the sequence stays. *)
Theorem C121_filtered {V} (p : V -> bool) (l : list V) os : Forall (whole V p l) os ->
  run V Plain os (fresh l) = option_map (fun obs => (obs, l)) (tale V (filter p l) os (fun _ => None)).
Proof.
  intros W. rewrite C121_program. apply (tale_story p l os); [exact W|]. split; [reflexivity|]. intros x. reflexivity.
Qed.
Print Assumptions C121_filtered.

(* Programs that only read see the same with caching as without; if the cached elements are
   kept on the heap, no iterator may be made at the end of the sequence. *)
Theorem C121_cached {V} pol (m : list V) os r :
  Forall (reading V (length m)) os -> (pol = OnHeap -> Forall (started V (length m)) os) ->
  run V Plain os (fresh m) = Some r -> run V pol os (fresh m) = Some r.
Proof.
  intros RD ST H. destruct pol; [exact H| |];
    (apply (run_follows _ os (fresh m) (fresh m)); [discriminate|exact RD|exact ST|split; [reflexivity|intros x; exact I]|exact H]).
Qed.
Print Assumptions C121_cached.

(* -- of an iterator of a part of a container does not stop at the begin of the part: it finds
   an accepted element before it. *)
Theorem C121_begin_refuted : exists (os : list (fop nat)) m,
  run nat Plain os (fresh m) = Some ([Nothing; Value 4; Nothing; Value 2], m) /\
  os = [Make 0 2 4 Nat.even; Read 0; Dec 0; Read 0] /\ length m = 4 /\ nth_error m 1 = Some 2.
Proof.
  exists [Make 0 2 4 Nat.even; Read 0; Dec 0; Read 0], [1; 2; 3; 4].
  split; [vm_compute; reflexivity|]. split; [reflexivity|]. split; reflexivity.
Qed.
Print Assumptions C121_begin_refuted.

(* With caching, writing through an iterator does not change the container; nor does the
   iterator see what is written to the container. *)
Theorem C121_write_refuted : forall pol, pol <> Plain ->
  exists (os : list (fop nat)) m a b, a <> b /\ snd a <> snd b /\
  run nat Plain os (fresh m) = Some a /\ run nat pol os (fresh m) = Some b /\
  os = [Make 0 0 3 Nat.even; Write 0 8; Put 2 6; Make 1 0 3 Nat.even; Read 1].
Proof.
  intros pol N. exists [Make 0 0 3 Nat.even; Write 0 8; Put 2 6; Make 1 0 3 Nat.even; Read 1], [2; 3; 4].
  exists ([Nothing; Nothing; Nothing; Nothing; Value 8], [8; 3; 6]),
         ([Nothing; Nothing; Nothing; Nothing; Value 2], [2; 3; 6]).
  split; [discriminate|]. split; [discriminate|]. split; [vm_compute; reflexivity|].
  split; [destruct pol; [congruence|vm_compute; reflexivity|vm_compute; reflexivity]|reflexivity].
Qed.
Print Assumptions C121_write_refuted.
Theorem C121_stale_refuted : forall pol, pol <> Plain ->
  exists (os : list (fop nat)) m, os = [Make 0 0 2 Nat.even; Put 0 6; Read 0] /\
  run nat Plain os (fresh m) = Some ([Nothing; Nothing; Value 6], [6; 3]) /\
  run nat pol os (fresh m) = Some ([Nothing; Nothing; Value 2], [6; 3]).
Proof.
  intros pol N. exists [Make 0 0 2 Nat.even; Put 0 6; Read 0], [2; 3].
  split; [reflexivity|]. split; [vm_compute; reflexivity|].
  destruct pol; [congruence|vm_compute; reflexivity|vm_compute; reflexivity].
Qed.
Print Assumptions C121_stale_refuted.

(* An end iterator with a cache on the heap cannot be copied, so x-- is undefined at it, while
   --x is fine. *)
Theorem C121_end_refuted : exists (m : list nat) r,
  run nat Plain [Make 0 2 2 Nat.even; PostDec 1 0; Read 0] (fresh m) = Some r /\
  run nat OnHeap [Make 0 2 2 Nat.even; PostDec 1 0; Read 0] (fresh m) = None /\
  run nat OnHeap [Make 0 2 2 Nat.even; Copy 1 0] (fresh m) = None /\
  run nat OnHeap [Make 0 2 2 Nat.even; Dec 0; Read 0] (fresh m) = Some ([Nothing; Nothing; Value 4], m).
Proof.
  exists [2; 4], ([Nothing; Nothing; Value 4], [2; 4]).
  split; [vm_compute; reflexivity|]. split; [vm_compute; reflexivity|]. split; vm_compute; reflexivity.
Qed.
Print Assumptions C121_end_refuted.

(* Two predicates and a part of the container, with writing *)
Example C121_program_example :
  story nat [Make 0 0 6 Nat.even; Make 1 1 5 (fun v => 3 <? v); PostInc 2 0; Same 0 1; Write 0 7; Read 1;
             Inc 0; Read 0; PostDec 3 0; Read 0; Read 3; Inc 1; Inc 1; SameAs 1 5; Inc 1]
    (Sheet (fun _ => None) [2; 1; 4; 5; 3; 8]) = None /\
  story nat [Make 0 0 6 Nat.even; Make 1 1 5 (fun v => 3 <? v); PostInc 2 0; Same 0 1; Write 0 7; Read 1;
             Inc 0; Read 0; PostDec 3 0; Read 0; Read 3; Inc 1; Inc 1; SameAs 1 5]
    (Sheet (fun _ => None) [2; 1; 4; 5; 3; 8]) =
  Some ([Nothing; Nothing; Nothing; Answer true; Nothing; Value 7;
         Nothing; Value 8; Nothing; Value 2; Value 8; Nothing; Nothing; Answer true], [2; 1; 7; 5; 3; 8]).
Proof. split; vm_compute; reflexivity. Qed.
(* A sequence walked backwards and forwards *)
Definition walk : list (fop nat) :=
  [Make 0 0 5 Nat.even; Make 1 5 5 Nat.even; Differ 0 1; Dec 1; Read 1; PostInc 2 0; Read 0; Read 2;
   Copy 3 1; Move 4 3; Swap 4 2; Read 4; Read 2; Same 0 1; Inc 0; Same 0 1].
Example C121_filtered_example :
  Forall (whole nat Nat.even [3; 2; 4; 5; 6]) walk /\
  tale nat (filter Nat.even [3; 2; 4; 5; 6]) walk (fun _ => None) =
    Some [Nothing; Nothing; Answer true; Nothing; Value 6; Nothing; Value 4; Value 2;
          Nothing; Nothing; Nothing; Value 2; Value 6; Answer false; Nothing; Answer true].
Proof.
  split; [|vm_compute; reflexivity]. unfold walk. repeat (apply Forall_cons; [cbn; auto|]). apply Forall_nil.
Qed.
Definition read_walk : list (fop nat) :=
  [Make 0 0 5 Nat.even; PostInc 1 0; Read 0; Read 1; Inc 0; Copy 2 0; Inc 2; PostDec 3 2; Read 2; Same 0 2].
Example C121_cached_example :
  Forall (reading nat 5) read_walk /\ Forall (started nat 5) read_walk /\
  run nat OnHeap read_walk (fresh [3; 2; 4; 5; 6]) =
    Some ([Nothing; Nothing; Value 4; Value 2; Nothing; Nothing; Nothing; Nothing; Value 6; Answer true], [3; 2; 4; 5; 6]).
Proof.
  split; [|split; [|vm_compute; reflexivity]]; unfold read_walk; repeat (apply Forall_cons; [cbn; auto|]); apply Forall_nil.
Qed.
