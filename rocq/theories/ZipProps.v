(* C120: programs over zip iterators. *)
From Coq Require Import List Bool ZArith Lia.
From Verif Require Import ZipModel ZipSpec ZipProofs.
Import ListNotations.
Local Open Scope Z_scope.
Set Default Proof Using "Type".

(* Any program over zip iterators that start side by side and stay on the rows of a table
   does to the columns what it means for the rows; nothing else in the containers changes. *)
Theorem C120_program {V} n sizes bases debug os (t : table V) (m : mem V) obs ended t' :
  fits n sizes bases -> holds n bases t m ->
  story n bases debug os (Sheet (fun _ => None) t) = Some (obs, ended, t') ->
  exists m', run sizes debug os (World (fun _ => None) m) = Some (obs, ended, m') /\
    holds n bases t' m' /\ (forall c p, elsewhere n bases c p -> m' c p = m c p).
Proof.
  intros F H S. apply (run_story n sizes bases F debug os (Sheet (fun _ => None) t) (World (fun _ => None) m) obs ended t'); [|exact S].
  split; [reflexivity|exact H].
Qed.
Print Assumptions C120_program.

(* Both builds do the same unless the program assigns an iterator to itself or swaps it
   with itself: such a step ends a debug build, no other does. *)
Definition selfish {V} (o : zop V) : bool :=
  match o with Assign x y | Swap x y => Nat.eqb x y | _ => false end.
Theorem C120_builds {V} sizes (os : list (zop V)) w :
  (existsb selfish os = false -> run sizes true os w = run sizes false os w) /\
  (forall o, exec sizes true o w = Stopped -> selfish o = true) /\
  (forall os1 o obs m, existsb selfish os1 = false -> selfish o = true ->
     run sizes false (os1 ++ o :: os) w = Some (obs, false, m) ->
     exists m', run sizes true (os1 ++ o :: os) w = Some (firstn (length os1) obs, true, m')).
Proof.
  assert (E : forall (o : zop V) w, selfish o = false -> exec sizes true o w = exec sizes false o w).
  { intros o w0 S. destruct o; try reflexivity; cbn [exec selfish] in *; rewrite S; reflexivity. }
  split; [|split].
  - revert w. induction os as [|o os IH]; intros w S; [reflexivity|]. cbn [existsb] in S. apply orb_false_iff in S as [S1 S2].
    cbn [run]. rewrite (E o w S1). destruct (exec sizes false o w); try reflexivity. now rewrite IH.
  - intros o. destruct o as [x ps|x y|x y|x y|x|x|y x|y x|x d|x d|y x d|x y|x y|x y|x y|x y|x y|x|x vs|x y];
      cbn [exec selfish]; unfold with2, with1, moved; intros S;
      repeat match type of S with
      | context [match ?a with _ => _ end] => lazymatch a with context [match _ with _ => _ end] => fail | _ => destruct a eqn:? end
      end; try discriminate; assumption.
  - intros os1. revert w. induction os1 as [|a os1 IH]; intros w o obs m S So R; cbn [app run length firstn] in *.
    + assert (X : exec sizes true o w = Stopped \/ exec sizes false o w = Undefined).
      { destruct o; try discriminate; cbn [exec selfish] in *; unfold with2, with1; rewrite So;
          destruct (vars w x); auto; destruct (vars w y); auto. }
      destruct X as [X|X]; rewrite X in *; [eauto|discriminate].
    + cbn [existsb] in S. apply orb_false_iff in S as [S1 S2]. rewrite (E a w S1).
      destruct (exec sizes false a w) as [v w'| |] eqn:X; [| |discriminate].
      * destruct (run sizes false (os1 ++ o :: os) w') as [[[l b] m2]|] eqn:R'; cbn in R; [|discriminate]. injection R as <- -> <-.
        destruct (IH w' o l m2 S2 So R') as (m' & R2). rewrite R2. cbn. eauto.
      * exfalso. destruct a; cbn [exec] in X; unfold with2, with1, moved in X; cbn [andb] in X;
          repeat match type of X with
          | context [match ?a with _ => _ end] => lazymatch a with context [match _ with _ => _ end] => fail | _ => destruct a eqn:? end
          end; discriminate.
Qed.
Print Assumptions C120_builds.

(* Iterators that do not move side by side are not ordered: >= holds both ways, < neither
   way, and they differ. *)
Theorem C120_order_refuted : exists (os : list (zop nat)) m,
  run [2; 2] true os (World (fun _ => None) (fun _ _ => 0%nat)) = Some ([Nothing; Nothing; Answer true; Answer true; Answer false; Answer false; Answer false; Number (-1)], false, m) /\
  os = [Make 0 [0; 1]; Make 1 [1; 0]; NotLess 0 1; NotLess 1 0; Less 0 1; Greater 0 1; Equal 0 1; Minus 0 1].
Proof. do 2 eexists. split; [|reflexivity]. reflexivity. Qed.
Print Assumptions C120_order_refuted.

(* Assigning an iterator to itself is fine in a release build only. *)
Theorem C120_self_refuted : exists (os : list (zop nat)) m,
  run [2; 2] false os (World (fun _ => None) m) = Some ([Nothing; Nothing; Values [0%nat; 0%nat]], false, m) /\
  run [2; 2] true os (World (fun _ => None) m) = Some ([Nothing], true, m).
Proof. exists [Make 0 [0; 1]; Assign 0 0; Read 0], (fun _ _ => 0%nat). split; reflexivity. Qed.
Print Assumptions C120_self_refuted.

(* two columns, the second from its third element on; the rows are reversed in place *)
Definition first_table : table nat := fun i c => (Z.to_nat i * 10 + c)%nat.
Definition first_mem : mem nat := fun c p => (Z.to_nat (p - nth c [0; 2] 0)%Z * 10 + c)%nat.
Definition prog : list (zop nat) :=
  [Make 0 [0; 2]; Plus 1 0 3; Dec 1; Less 0 1; Read 0; Read 1; Minus 1 0; PostInc 2 0; CopyRow 2 0; Store 0 [7; 8]%nat; Swap 0 1; Equal 0 1;
   Retreat 0 1; Equal 0 1; NotLess 2 0; Read 2; Read 1; Advance 2 2; Read 2].
Example C120_ex_fits : fits 3 [3; 6] [0; 2].
Proof. split; [discriminate|]. split; [lia|]. repeat constructor; lia. Qed.
Example C120_ex_holds : holds 3 [0; 2] first_table first_mem.
Proof.
  intros i c R C. apply row_range in R. unfold first_mem, first_table. replace (nth c [0; 2] 0 + i - nth c [0; 2] 0) with i by lia. reflexivity.
Qed.
Definition trace : list (seen nat) :=
  [Nothing; Nothing; Nothing; Answer true; Values [0; 1]%nat; Values [20; 21]%nat; Number 2; Nothing; Nothing; Nothing; Nothing; Answer false;
   Nothing; Answer true; Answer false; Values [10; 11]%nat; Values [7; 8]%nat; Nothing; Values [20; 21]%nat].
Lemma seen_first {A B} (r : option (A * B)) a : option_map fst r = Some a -> exists b, r = Some (a, b).
Proof. destruct r as [[x b]|]; cbn; [|discriminate]. intros [= ->]. eauto. Qed.
Example C120_ex_story : exists t', story 3 [0; 2] true prog (Sheet (fun _ => None) first_table) = Some (trace, false, t').
Proof. apply seen_first. vm_compute. reflexivity. Qed.
Example C120_ex_run : exists m', run [3; 6] true prog (World (fun _ => None) first_mem) = Some (trace, false, m').
Proof. apply seen_first. vm_compute. reflexivity. Qed.
Example C120_ex_builds : existsb selfish prog = false /\ existsb selfish (firstn 6 prog) = false /\
  exists m, run [3; 6] false (firstn 6 prog ++ Swap 1 1 :: skipn 6 prog) (World (fun _ => None) first_mem) =
    Some (firstn 6 trace ++ Nothing :: skipn 6 trace, false, m).
Proof. split; [reflexivity|]. split; [reflexivity|]. apply seen_first. vm_compute. reflexivity. Qed.
