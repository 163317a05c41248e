(* The properties of any. *)
From Coq Require Import List Bool Arith Lia.
From Verif Require Import LifeModel AnyModel AnySpec AnyProofs.
Import ListNotations.

(* Whatever a program does with its anys and whenever an allocation or a copy
   throws: no operation is undefined; each has exactly its effect, or throws and
   has none, and it throws exactly where it must or where something it calls
   does; type, empty, get and get_or answer according to what was last stored;
   no two anys share a holder and every holder not freed has an owner. *)
Theorem C23_simulation (V : Type) (copyable : nat -> bool) :
  exists Rel : aworld V -> state V -> Prop,
    (forall oracle, Rel (astart oracle) nothing) /\
    (forall (w : aworld V) (st : state V) (o : op V), Rel w st -> legal o st ->
       exists w' st', step copyable o st w w' st' /\ Rel w' st') /\
    (forall (w : aworld V) (st : state V), Rel w st -> seen w st /\ balanced w st).
Proof. exact (simulation copyable). Qed.
Print Assumptions C23_simulation.

(* types 0, 1, 2, ...; those below 5 can be copied *)
Definition small (t : nat) : bool := t <? 5.

(* the copy throws: the target keeps its value *)
Example C23_simulation_example :
  exists w1 w2,
    run small [NewPlain 0 1 10; NewPlain 1 2 20] (astart [false; false; true]) = Some w1 /\
    exec small (AssignConst 0 1) w1 = Threw w2 /\ get 0 1 w2 = Done 10 w2 /\ get 1 2 w2 = Done 20 w2 /\
    allocs w2 = 2 /\ frees w2 = 0.
Proof.
  eexists. eexists. split; [vm_compute; reflexivity|]. split; [vm_compute; reflexivity|].
  vm_compute. repeat split.
Qed.

(* If no allocation and no copy throws: after every history the anys have what
   the history says. *)
Theorem C23_histories (V : Type) (copyable : nat -> bool) (l : list (op V)) (st : state V) :
  follows copyable l nothing st ->
  exists w, run copyable l (astart []) = Some w /\ seen w st /\ balanced w st.
Proof. exact (histories copyable l st). Qed.
Print Assumptions C23_histories.

Definition c23_history : list (op nat) :=
  [NewPlain 0 1 10; NewCopyConst 1 0; Store 1 1 11; New 2; AssignMove 2 0; AssignPlain 0 9 90; AssignConst 1 0; Swap 1 2;
   Delete 2].

Ltac follow :=
  lazymatch goal with
  | |- follows _ [] _ _ => apply follows_nil
  | |- follows _ (AssignConst 1 0 :: _) _ _ => apply follows_threw
  | |- _ => apply follows_done
  end.

Example C23_histories_example :
  (exists st, follows small c23_history nothing st) /\
  exists w, run small c23_history (astart []) = Some w /\
    get 1 1 w = Done 10 w /\ get 0 9 w = Done 90 w /\ get 0 1 w = Threw w /\ anys w 2 = None /\
    allocs w = 3 /\ frees w = 1.
Proof.
  split.
  - eexists. unfold c23_history.
    repeat follow; cbn; unfold exists_in; cbn; try tauto; try (repeat split; congruence).
    + intros [x [X Y]]. apply Y. injection X as <-. constructor. reflexivity.
    + intros G. apply G. eexists. reflexivity.
    + eexists. split; [reflexivity|]. intros G. inversion G. discriminate.
  - eexists. split; [vm_compute; reflexivity|]. vm_compute. repeat split.
Qed.

(* A copy shares nothing with its source: whatever is done to other variables
   afterwards, the copy keeps its value. *)
Definition touches {V : Type} (o : op V) (i : nat) : Prop :=
  match o with
  | New k | NewPlain k _ _ | NewCopyConst k _ | NewCopyLvalue k _ | Delete k | AssignConst k _ | AssignLvalue k _
  | AssignPlain k _ _ | Clear k | Store k _ _ => k = i
  | NewMove k j | AssignMove k j | Swap k j => k = i \/ j = i
  end.

Theorem C23_untouched (V : Type) (copyable : nat -> bool) (l l' : list (op V)) (i : nat) (st st' : state V) :
  follows copyable l nothing st -> follows copyable l' st st' -> (forall o, In o l' -> ~ touches o i) ->
  exists w w', run copyable l (astart []) = Some w /\ run copyable l' w = Some w' /\ seen w st /\ seen w' st' /\ st' i = st i.
Proof.
  intros A B N. destruct (histories copyable l st A) as [w [E [S _]]].
  assert (F : follows copyable (l ++ l') nothing st').
  { clear E S N w. revert A. generalize (@nothing V). intros s0 A. induction A; cbn [app]; [assumption| |].
    - apply follows_done; auto.
    - apply follows_threw; auto. }
  destruct (histories copyable _ st' F) as [w' [E' [S' _]]].
  assert (G : forall (a b : list (op V)) x y, run copyable a x = Some y -> run copyable (a ++ b) x = run copyable b y).
  { induction a as [|o a IH]; cbn; intros b x y H; [congruence|]. destruct (exec copyable o x); try discriminate; apply IH; assumption. }
  exists w, w'. split; [assumption|]. split; [rewrite <- E', (G l l' _ w E); reflexivity|].
  split; [assumption|]. split; [assumption|].
  clear - B N. induction B as [st|o l st st' L M _ IH|o l st st' L M _ IH]; [reflexivity| |].
  - rewrite IH by (intros; apply N; right; assumption). specialize (N o (or_introl eq_refl)).
    assert (P : forall (s : state V) k x, k <> i -> put s k x i = s i).
    { intros s k x D. unfold put. destruct (Nat.eqb_spec i k); [congruence|reflexivity]. }
    destruct o; cbn in N |- *; try (destruct (st _); rewrite ?P by tauto; reflexivity); rewrite ?P by tauto; reflexivity.
  - apply IH. intros. apply N. right. assumption.
Qed.
Print Assumptions C23_untouched.

Example C23_untouched_example :
  exists w w',
    run small [NewPlain 0 1 10; NewCopyConst 1 0] (astart []) = Some w /\
    run small [Store 0 1 11; Clear 0; AssignPlain 0 2 7; Delete 0] w = Some w' /\
    get 1 1 w = Done 10 w /\ get 1 1 w' = Done 10 w'.
Proof.
  eexists. eexists. split; [vm_compute; reflexivity|]. split; [vm_compute; reflexivity|]. vm_compute. repeat split.
Qed.

(* Copying an any that is not const does not copy its value: the template
   constructor is the better match and wraps the any in another. *)
Theorem C23_copy_of_nonconst_refuted :
  exists (w w' : aworld nat),
    run small [NewPlain 0 1 10; NewCopyLvalue 1 0; New 2; AssignLvalue 2 0] (astart []) = Some w /\
    get 0 1 w = Done 10 w /\ get 1 1 w = Threw w /\ type_of 1 w = Done OfAny w /\ get 2 1 w = Threw w /\
    run small [NewPlain 0 1 10; NewCopyConst 1 0; New 2; AssignConst 2 0] (astart []) = Some w' /\
    get 1 1 w' = Done 10 w' /\ get 2 1 w' = Done 10 w'.
Proof.
  eexists. eexists. split; [vm_compute; reflexivity|]. do 4 (split; [vm_compute; reflexivity|]).
  split; [vm_compute; reflexivity|]. vm_compute. repeat split.
Qed.
Print Assumptions C23_copy_of_nonconst_refuted.

(* Moving an any into itself empties it. *)
Theorem C23_self_move_refuted :
  exists (w : aworld nat),
    run small [NewPlain 0 1 10; AssignMove 0 0] (astart []) = Some w /\ empty 0 w = Done true w /\
    allocs w = 1 /\ frees w = 1.
Proof. eexists. split; [vm_compute; reflexivity|]. vm_compute. repeat split. Qed.
Print Assumptions C23_self_move_refuted.
