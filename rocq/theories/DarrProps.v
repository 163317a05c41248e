(* C118: array_nd in a debug build. *)
From Coq Require Import List Bool NArith ZArith Lia Arith.
From Verif Require Import NdModel NdSpec NdProofs NdAccess ArrModel ArrSpec ArrProofs ArrRun DarrModel DarrSpec DarrProofs.
Import ListNotations.
Local Open Scope N_scope.
Set Default Proof Using "Type".

(* a[i]...[k] reaches the element of the row-major order when every index is inside, and
   ends the program otherwise; at throws instead. *)
Theorem C118_access sz a is : 0 < sz -> placed sz a -> length is = length (shape a) ->
  (in_range (shape a) is ->
     d_nested sz (base a) (shape a) is = Here (base a + row_major (shape a) is * sz) /\
     d_at sz (base a) (shape a) is = Here (base a + row_major (shape a) is * sz)) /\
  (~ in_range (shape a) is ->
     d_nested sz (base a) (shape a) is = Stops /\ d_at sz (base a) (shape a) is = Throws).
Proof.
  intros Hz P Le. rewrite d_nested_spec, d_at_spec by (apply P || exact Le). split; intros I.
  - pose proof (locate_spec sz Brackets a is Hz P Le (fun _ => I)) as Y. cbn [locate] in Y.
    apply insideb_spec in I as I'. rewrite I' in Y |- *. injection Y as Y. rewrite Y. split; reflexivity.
  - destruct (insideb (shape a) is) eqn:E; [|split; reflexivity]. apply insideb_spec in E. contradiction.
Qed.
Print Assumptions C118_access.

(* Any program over arrays that lie apart, with any indices in brackets and at: the calls
   that throw, whether an assertion ends it, and what the arrays hold then are as judged on
   tables of values; no other byte changes.  This holds for both orders in which the sides
   of an assignment may be evaluated. *)
Theorem C118_program {V} source_first sz arrs os (t : tables V) m :
  laid_out sz arrs -> holds sz arrs t m -> Forall (compiles (shapes arrs)) os ->
  exists threw ended t' m',
    judged source_first (shapes arrs) os t = (threw, ended, t') /\
    d_run source_first sz arrs os m = Some (threw, ended, m') /\
    holds sz arrs t' m' /\ (forall x, elsewhere sz arrs x -> m' x = m x).
Proof.
  intros L H F. destruct (d_run_spec sz arrs L source_first os t m F H) as (m' & E & H' & O). cbn zeta in *.
  destruct (judged source_first (shapes arrs) os t) as [[a b] c]. exists a, b, c, m'. auto.
Qed.
Print Assumptions C118_program.

(* A program that no assertion ends does what it does in a release build. *)
Theorem C118_release {V} source_first sz arrs os (m : mem V) threw m' :
  laid_out sz arrs -> Forall (compiles (shapes arrs)) os ->
  d_run source_first sz arrs os m = Some (threw, false, m') -> run sz arrs os m = Some (threw, m').
Proof. intros L. exact (d_run_release sz arrs L source_first os m threw m'). Qed.
Print Assumptions C118_release.

(* No assertion ends a program that stays inside the arrays but for at. *)
Theorem C118_inside {V} source_first sz arrs os (t : tables V) m :
  laid_out sz arrs -> holds sz arrs t m -> Forall (legal (shapes arrs)) os ->
  exists m', d_run source_first sz arrs os m = Some (fst (meanings (shapes arrs) os t), false, m') /\
    holds sz arrs (snd (meanings (shapes arrs) os t)) m'.
Proof.
  intros L H F. assert (C : Forall (compiles (shapes arrs)) os).
  { revert F. apply Forall_impl. intros [p a is s|a k s|a v|a b|a b]; cbn; try tauto.
    - intros [(? & ? & R) Y]. split; [split; [assumption|split; [assumption|intros [->| ->]; apply R; discriminate]]|].
      destruct s as [|q b js]; [exact I|]. destruct Y as (? & ? & R'). split; [assumption|split; [assumption|intros [->| ->]; apply R'; discriminate]].
    - intros (? & ? & Y). split; [assumption|split; [assumption|]].
      destruct s as [|q b js]; [exact I|]. destruct Y as (? & ? & R'). split; [assumption|split; [assumption|intros [->| ->]; apply R'; discriminate]]. }
  destruct (C118_program source_first sz arrs os t m L H C) as (a & b & t' & m' & J & R & H' & _).
  rewrite (legal_judged source_first) in J by exact F. injection J as <- <- <-. eauto.
Qed.
Print Assumptions C118_inside.

(* size(k) is the k-th extent and stride(k) the bytes between neighbours along axis k; an
   axis there is not, or the last one for stride, ends the program. *)
Theorem C118_axes sz a k : 0 < sz -> placed sz a ->
  d_size (shape a) k = nth_error (shape a) k /\
  (forall b, d_stride sz (shape a) k = Some b <-> (S k < length (shape a))%nat /\ b = volume (skipn (S k) (shape a)) * sz).
Proof.
  intros Hz P. pose proof P as (E & Po & B). split.
  - unfold d_size. destruct (Nat.ltb_spec k (length (shape a))) as [K|K]; [reflexivity|]. symmetry. now apply nth_error_None.
  - intros b.
    assert (V : forall e r, volume (e :: r) = e * volume r) by reflexivity.
    assert (PO : forall j sh, Forall (fun e => 0 < e) sh -> Forall (fun e => 0 < e) (skipn j sh) /\ 0 < volume sh /\ volume (skipn j sh) <= volume sh).
    { clear -V. intros j sh. revert j. induction sh as [|e sh IH]; intros j F; [destruct j; repeat split; cbn; try constructor; lia|].
      inversion F as [|? ? Fe F']; subst. destruct (IH 0%nat F') as (_ & Q & _). destruct j as [|j]; cbn [skipn]; rewrite ?V.
      - split; [exact F|]. split; nia.
      - destruct (IH j F') as (X & _ & Y). split; [exact X|]. split; nia. }
    assert (D : (S k < length (shape a))%nat -> d_stride sz (shape a) k = Some (volume (skipn (S k) (shape a)) * sz)).
    { intros K. destruct (PO (S k) (shape a) Po) as (Ps & _ & Le).
      assert (X : mul64 (shape_total (skipn (S k) (shape a))) sz = volume (skipn (S k) (shape a)) * sz).
      { unfold mul64. rewrite shape_total_exact; [|intros Z; pose proof (f_equal (@length N) Z) as Z'; rewrite skipn_length in Z'; cbn [length] in Z'; lia|exact Ps|nia].
        apply w64_small. nia. }
      rewrite <- X, <- all_strides_nth by exact K. unfold d_stride.
      destruct (shape a) as [|e [|f r]]; cbn [length] in K; try lia.
      rewrite (proj2 (Nat.ltb_lt _ _)) by (cbn [length]; lia). reflexivity. }
    split.
    + intros S. destruct (Nat.ltb_spec (Datatypes.S k) (length (shape a))) as [K|K].
      * split; [exact K|]. rewrite (D K) in S. congruence.
      * exfalso. unfold d_stride in S. destruct (shape a) as [|e [|f r]]; try discriminate.
        rewrite (proj2 (Nat.ltb_ge _ _)) in S by (cbn [length] in *; lia). discriminate.
    + intros [K ->]. exact (D K).
Qed.
Print Assumptions C118_axes.

(* Without the assertions a wrong index in brackets goes unnoticed: a[0][3] of a 2 x 3 array
   writes a[1][0], and a[2][0] writes outside of every array. *)
Ltac comp := repeat (apply Forall_cons || apply Forall_nil); cbn [compiles names_some_source]; unfold names_some;
  repeat match goal with |- _ /\ _ => split end; try exact I; try reflexivity; try (cbn; lia); try (intros [|]; discriminate).
Definition lone : list arr := [Arr 4096 [2; 3]].
Lemma lone_laid_out : laid_out 8 lone.
Proof.
  split; [reflexivity|]. split.
  - repeat constructor; cbn; discriminate || lia || (vm_compute; reflexivity).
  - intros a b H. cbn in H. lia.
Qed.
Theorem C118_unnoticed_refuted : exists (m : mem nat) m1 m2,
  Forall (compiles (shapes lone)) [Store Brackets 0 [0; 3] (Value 7%nat)] /\
  run 8 lone [Store Brackets 0 [0; 3] (Value 7%nat)] m = Some ([false], m1) /\
  m1 (plain_at 8 (the lone 0) 3) = 7%nat /\ m (plain_at 8 (the lone 0) 3) = 0%nat /\
  run 8 lone [Store Brackets 0 [2; 0] (Value 7%nat)] m = Some ([false], m2) /\
  (exists x, elsewhere 8 lone x /\ m2 x <> m x) /\
  d_run true 8 lone [Store Brackets 0 [0; 3] (Value 7%nat)] m = Some ([], true, m) /\
  d_run true 8 lone [Store Brackets 0 [2; 0] (Value 7%nat)] m = Some ([], true, m).
Proof.
  exists (fun _ => 0%nat). do 2 eexists.
  split; [comp|].
  split; [reflexivity|]. split; [reflexivity|]. split; [reflexivity|]. split; [reflexivity|].
  split; [|split; reflexivity].
  exists 4144. split; [|discriminate].
  intros i k Hi Hk. cbn in Hi. assert (i = 0%nat) as -> by lia. change (k < 6) in Hk. change (4144 <> 4096 + k * 8). lia.
Qed.
Print Assumptions C118_unnoticed_refuted.

(* Whether an assignment throws or ends the program may depend on the order of evaluation. *)
Theorem C118_order_refuted : exists o : op nat, compiles (shapes lone) o /\
  d_run true 8 lone [o] (fun _ => 0%nat) = Some ([true], false, fun _ => 0%nat) /\
  d_run false 8 lone [o] (fun _ => 0%nat) = Some ([], true, fun _ => 0%nat).
Proof.
  exists (Store Brackets 0 [0; 3] (Elem At 0 [2; 0])). split; [|split; reflexivity].
  comp.
Qed.
Print Assumptions C118_order_refuted.

Definition prog : list (op nat) :=
  [Store Brackets 0 [1; 2] (Value 5%nat); Store At 0 [0; 0] (Elem Brackets 0 [1; 2]); Store At 0 [0; 3] (Value 1%nat);
   StorePlain 0 1 (Elem At 0 [2; 0]); Store Brackets 0 [0; 2] (Elem Brackets 0 [1; 3]); Fill 0 9%nat].
Example C118_ex_compiles : Forall (compiles (shapes lone)) prog.
Proof. unfold prog. comp. Qed.
Example C118_ex_holds : holds 8 lone (fun _ _ => 0%nat) (fun _ => 0%nat).
Proof. intros a is Ha R. reflexivity. Qed.
Example C118_ex_run : exists m', d_run true 8 lone prog (fun _ => 0%nat) = Some ([false; false; true; true], true, m') /\
  map (fun k => m' (plain_at 8 (the lone 0) k)) [0; 1; 2; 3; 4; 5] = [5; 0; 0; 0; 0; 5]%nat.
Proof. eexists. split; reflexivity. Qed.
Example C118_ex_release : exists m', d_run false 8 lone (firstn 4 prog) (fun _ => 0%nat) = Some ([false; false; true; true], false, m').
Proof. eexists. reflexivity. Qed.
Example C118_ex_inside : Forall (legal (shapes lone)) (firstn 4 prog).
Proof.
  unfold prog, firstn.
  assert (R : in_range (shape_of (shapes lone) 0) [1; 2]) by (apply insideb_spec; reflexivity).
  repeat (apply Forall_cons || apply Forall_nil); cbn [legal names_source]; unfold names_element;
    repeat match goal with |- _ /\ _ => split end; try exact I; try reflexivity; try (cbn; lia); intros; first [exact R|congruence].
Qed.
Example C118_ex_placed : placed 8 (Arr 4096 [2; 3; 4]) /\ d_stride 8 [2; 3; 4] 0 = Some 96 /\ d_stride 8 [2; 3; 4] 1 = Some 32 /\
  d_stride 8 [2; 3; 4] 2 = None /\ d_stride 8 [4] 0 = None /\ d_size [2; 3; 4] 2 = Some 4 /\ d_size [2; 3; 4] 3 = None.
Proof. split; [|repeat split; reflexivity]. split; [discriminate|]. split; [repeat constructor|]. cbn. lia. Qed.
