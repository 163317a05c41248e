(* C122: programs over transform iterators. *)
From Coq Require Import List Bool Arith ZArith Lia.
From Verif Require Import TranModel TranSpec TranProofs.
Import ListNotations.
Set Default Proof Using "Type".

Definition fresh {A} B (l : list A) : world A B := World (fun _ => None) l.

(* Iterators made with one function are indices of the list of its results; what is put into
   the container is seen through the function. *)
Theorem C122_program {A B} (f : A -> B) os (l : list A) : Forall (uses A B f) os ->
  option_map (fun r => (fst r, map f (snd r))) (run A B os (fresh B l)) =
  story A B f os (Shelf (fun _ => None) (map f l)).
Proof.
  intros U. apply story_run; [exact U|]. split; [reflexivity|]. intros x. exact I.
Qed.
Print Assumptions C122_program.

(* With several functions a program does what it does with plain iterators; a value is seen
   through the function its iterator carries according to the program text: assignments, moves,
   swaps and postfix operators take the function along.  It is one of the functions given. *)
Theorem C122_functions {A B} (os : list (top A B)) :
  (forall g, In g (carried os (fun _ => None)) -> In g (functions os)) /\
  forall l, run A B os (fresh B l) =
    option_map (fun r => (dress (carried os (fun _ => None)) (fst r), snd r)) (run A A (map plain os) (fresh A l)).
Proof.
  split.
  - intros g H. destruct (carried_in _ _ _ H) as [F|(x & F)]; [exact F|discriminate].
  - intros l. apply run_alike. split; [reflexivity|]. intros x. exact I.
Qed.
Print Assumptions C122_functions.

(* nothing seen is lost by [dress] if the program runs *)
Theorem C122_all {A B} (os : list (top A B)) l obs l' : run A B os (fresh B l) = Some (obs, l') -> length obs = length os.
Proof.
  generalize (fresh B l). revert obs l'. induction os as [|o os IH]; intros obs l' w H; cbn [run] in H.
  - injection H as <- _. reflexivity.
  - destruct (exec A B o w) as [[u w']|]; [|discriminate]. destruct (run A B os w') as [[k d]|] eqn:R; [|discriminate].
    cbn in H. injection H as <- <-. cbn [length]. f_equal. exact (IH _ _ _ R).
Qed.
Print Assumptions C122_all.

(* Iterators with different functions are equal where they stand together, though they read
   different values. *)
Theorem C122_equal_refuted : exists (os : list (top nat nat)) l l',
  run nat nat os (fresh nat l) = Some ([Nothing; Nothing; Answer true; Value 3; Value 4], l').
Proof.
  exists [Make 0 1%Z (fun a => a + 1); Make 1 1%Z (fun a => a + 2); Equal 0 1; Read 0; Read 1], [1; 2], [1; 2].
  vm_compute. reflexivity.
Qed.
Print Assumptions C122_equal_refuted.

Definition square (a : nat) : nat := a * a.
Definition tour : list (top nat nat) :=
  [Make 0 0%Z square; Make 1 4%Z square; Minus 1 0; PostInc 2 0; Read 2; Read 0; Put 1%Z 5; Read 0; Dec 1; Read 1;
   Less 0 1; NotGreater 1 0; Plus 3 0 2%Z; Equal 3 1; Swap 0 1; Greater 0 1; Move 4 1; Retreat 4 1%Z; NotLess 4 2; Read 4].
Example C122_program_example :
  Forall (uses nat nat square) tour /\
  story nat nat square tour (Shelf (fun _ => None) [1; 4; 9; 16]) =
    Some ([Nothing; Nothing; Number 4; Nothing; Value 1; Value 4; Nothing; Value 25; Nothing; Value 16;
           Answer true; Answer false; Nothing; Answer true; Nothing; Answer true; Nothing; Nothing; Answer true; Value 1],
          [1; 25; 9; 16]).
Proof.
  split; [|vm_compute; reflexivity]. unfold tour. repeat (apply Forall_cons; [cbn; auto|]). apply Forall_nil.
Qed.
(* an assignment takes the function along *)
Example C122_functions_example :
  run nat nat [Make 0 0%Z square; Make 1 1%Z S; Read 0; Read 1; Copy 0 1; Inc 0; Read 0] (fresh nat [7; 8; 9]) =
    Some ([Nothing; Nothing; Value 49; Value 9; Nothing; Nothing; Value 10], [7; 8; 9]) /\
  carried [Make 0 0%Z square; Make 1 1%Z S; Read 0; Read 1; Copy 0 1; Inc 0; Read 0] (fun _ => None) = [square; S; S] /\
  dress [square; S; S] [Nothing; Nothing; Value 7; Value 8; Nothing; Nothing; Value 9] =
    [Nothing; Nothing; Value 49; Value 9; Nothing; Nothing; Value 10].
Proof. split; [vm_compute; reflexivity|]. split; reflexivity. Qed.
