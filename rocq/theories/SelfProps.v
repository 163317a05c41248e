(* C102: what the code of an actor may ask of its base class, where, and what
   it gets. *)
From Coq Require Import List Bool Arith Lia.
From Verif Require Import SelfModel SelfSpec SelfProofs.
Import ListNotations.

(* an actor that pushes a behaviour in its constructor, takes a message, changes
   its behaviour, catches nothing, and is destroyed *)
Definition say (o : op) (p : prog) : prog := Ask o (fun _ => p).
Definition demo_code (c : consumer) : prog :=
  match c with
  | Own => say OSender (say (OBecome (Some (Obj 1)) false) Throw)
  | Obj 1 => say (OForward 9) (say OUnbecome (say (ODelete 1) Return))
  | Obj _ => say OUnbecome Return
  end.
Definition demo : list turn :=
  [THook (say OSelf Return); TMessage 5 demo_code; TMessage 6 demo_code; TPoison; TMessage 7 demo_code; THook Throw].
Example C102_demo :
  history 3 (say OLog (say (OBecome (Some (Obj 2)) false) Return)) demo (say OSelf Return) =
  [ Did OLog Thrown; Did (OBecome (Some (Obj 2)) false) (Value (Pointer None)); Born;
    Hook; Did OSelf (Value (Ref 3)); Ended false;
    Called Own 5; Did OSender (Value (Ref 5)); Did (OBecome (Some (Obj 1)) false) (Value (Pointer None)); Ended true;
    Called (Obj 1) 6; Did (OForward 9) (Value (Sent 6 9)); Did OUnbecome (Value (Pointer (Some (Obj 1))));
      Did (ODelete 1) (Value Nothing); Ended false;
    Poisoned;
    Called Own 7; Did OSender (Value (Ref 7)); Did (OBecome (Some (Obj 1)) false) (Value (Pointer None)); Ended true;
    Hook; Ended true;
    Dying; Did OSelf (Value (Ref 3)); Freed false ].
Proof. reflexivity. Qed.

(* C102: every call answers what the table says for the place it is made in, for
   the number of behaviours stacked and for the one in force, all read off the
   past; except that a behaviour which destroyed itself must ask for nothing, and
   nothing is destroyed twice. *)
Theorem C102_answers_exactly :
  forall (me : nat) (ctor : prog) (ts : list turn) (dtor : prog) (past : list event) (o : op) (v : outcome) (rest : list event),
    history me ctor ts dtor = past ++ Did o v :: rest ->
    ((orphan past \/ deletes_again o past) /\ v = Undefined) \/
    (~ orphan past /\ ~ deletes_again o past /\ v = table me (where_ past) (depth past) (in_force past) o).
Proof.
  intros me ctor ts dtor past o v rest E.
  destruct (history_right me ctor ts dtor past (Did o v) rest E) as [[_ H] _]. exact H.
Qed.
Print Assumptions C102_answers_exactly.

(* C102: a message goes to the behaviour in force: the argument of the latest
   become that was not taken back, or else the actor itself. *)
Theorem C102_behaviour_in_force :
  forall (me : nat) (ctor : prog) (ts : list turn) (dtor : prog) (past : list event) (e : event) (rest : list event),
    history me ctor ts dtor = past ++ e :: rest ->
    (forall c f, e = Called c f -> in_force past = Some c /\ forall n, c = Obj n -> ~ destroyed n past) /\
    (forall n, e = CalledDead n -> in_force past = Some (Obj n) /\ destroyed n past) /\
    e <> NoTop.
Proof.
  intros me ctor ts dtor past e rest E.
  destruct (history_right me ctor ts dtor past e rest E) as [H _]. split; [|split].
  - intros c f ->. apply H.
  - intros n ->. apply H.
  - intros ->. exact H.
Qed.
Print Assumptions C102_behaviour_in_force.

(* C102: sender() and forward() speak of the message at hand, whatever the code
   did in between. *)
Theorem C102_sender_is_of_this_message :
  forall (me : nat) (ctor : prog) (ts : list turn) (dtor : prog) (before : list event) (c : consumer) (f : nat)
         (during : list event) (o : op) (v : outcome) (rest : list event),
    history me ctor ts dtor = (before ++ Called c f :: during) ++ Did o v :: rest ->
    (forall e, In e during -> exists o' a, e = Did o' a) ->
    ~ orphan (before ++ Called c f :: during) ->
    (o = OSender -> v = Value (Ref f)) /\ (forall t, o = OForward t -> v = Value (Sent f t)).
Proof.
  intros me ctor ts dtor before c f during o v rest E D NO.
  assert (W : where_ (before ++ Called c f :: during) = InReceive c f).
  { unfold where_. rewrite fold_left_app. cbn [fold_left move]. clear E NO.
    generalize dependent during. intros during D. induction during as [|e d IH]; [reflexivity|].
    cbn [fold_left]. destruct (D e (or_introl eq_refl)) as (o' & a & ->). cbn [move]. apply IH.
    intros x I. apply D. now right. }
  destruct (C102_answers_exactly _ _ _ _ _ _ _ _ E) as [[[X|X] _]|(_ & _ & ->)].
  - now contradiction NO.
  - destruct X as (n & -> & _). split; [discriminate|intros t Et; discriminate].
  - rewrite W. split; [now intros ->|]. intros t ->. reflexivity.
Qed.
Print Assumptions C102_sender_is_of_this_message.

(* C102: the program is over exactly when something fatal happened, and nothing
   happens afterwards. *)
Theorem C102_fatal_is_last :
  forall (me : nat) (ctor : prog) (ts : list turn) (dtor : prog),
    ((exists s, life me ctor ts dtor = Stop s) <-> exists e, In e (history me ctor ts dtor) /\ fatal e = true) /\
    (forall past e rest, history me ctor ts dtor = past ++ e :: rest -> fatal e = true -> rest = []).
Proof.
  intros me ctor ts dtor. split; [apply stops_iff|].
  intros past e rest E. exact (proj2 (history_right me ctor ts dtor past e rest E)).
Qed.
Print Assumptions C102_fatal_is_last.

(* C102: an actor whose constructor at most pushes behaviours and asks for what
   throws, and does not itself throw; which asks for the sender in receive only,
   destroys no behaviour, and in its destructor does not log: whatever it does
   otherwise, in whatever order its turns come, nothing fatal happens, and every
   message is given to a behaviour. *)
Theorem C102_careful_actors_are_safe :
  forall (me : nat) (ctor : prog) (ts : list turn) (dtor : prog),
    only ctor_call ctor -> never_throws ctor -> Forall careful_turn ts -> only dtor_call dtor -> never_throws dtor ->
    (forall e, In e (history me ctor ts dtor) -> fatal e = false) /\
    count is_call (history me ctor ts dtor) = length (filter is_message ts).
Proof.
  intros me ctor ts dtor A B C D E. destruct (careful_life me ctor ts dtor A B C D E) as (s & L & K). split.
  - intros e I. destruct (fatal e) eqn:F; [|reflexivity].
    destruct (proj2 (stops_iff me ctor ts dtor) (ex_intro _ e (conj I F))) as (s' & L'). rewrite L in L'. discriminate.
  - unfold history. rewrite L. cbn [ending]. rewrite K. clear. induction ts as [|t ts IH]; [reflexivity|].
    cbn [messages filter]. destruct (is_message t); cbn [length]; lia.
Qed.
Print Assumptions C102_careful_actors_are_safe.
Definition careful_code (c : consumer) : prog :=
  match c with Own => say OSender (say (OBecome (Some (Obj 1)) false) Throw) | _ => say (OForward 9) (say OUnbecome Return) end.
Example C102_careful_example :
  only ctor_call (say OLog (say (OBecome (Some (Obj 2)) false) Return)) /\
  never_throws (say OLog (say (OBecome (Some (Obj 2)) false) Return)) /\
  Forall careful_turn [THook (say OLog Throw); TMessage 5 careful_code; TMessage 6 careful_code] /\
  only dtor_call (say OSelf Return) /\ never_throws (say OSelf Return) /\
  length (history 3 (say OLog (say (OBecome (Some (Obj 2)) false) Return))
            [THook (say OLog Throw); TMessage 5 careful_code; TMessage 6 careful_code] (say OSelf Return)) = 17.
Proof.
  assert (O : forall (P : op -> Prop) o p, P o -> only P p -> only P (say o p)) by (intros; constructor; [assumption|now intros]).
  assert (N : forall o p, never_throws p -> never_throws (say o p)) by (intros; constructor; now intros).
  split; [repeat (apply O; [exact I|]); constructor|].
  split; [repeat apply N; constructor|].
  split; [repeat constructor; intros [|n]; cbn; repeat (apply O; [exact I|]); constructor|].
  split; [repeat (apply O; [exact I|]); constructor|].
  split; [repeat apply N; constructor|reflexivity].
Qed.

(* C102: what a callback throws changes nothing but the note that it threw. *)
Theorem C102_exceptions_stay_in_the_turn :
  forall (me : nat) (ctor : prog) (ts : list turn) (dtor : prog),
    map forget (history me ctor ts dtor) = map forget (history me ctor (map caught_turn ts) dtor).
Proof. exact caught_history. Qed.
Print Assumptions C102_exceptions_stay_in_the_turn.
Example C102_exceptions_example :
  In (Ended true) (history 3 Return demo Return) /\ ~ In (Ended true) (history 3 Return (map caught_turn demo) Return).
Proof.
  split.
  - vm_compute. do 7 right. now left.
  - vm_compute. intros H. repeat (destruct H as [H|H]; [discriminate H|]). exact H.
Qed.

(* ---- what does not hold ---- *)
(* a behaviour chosen in the constructor is covered by the actor itself *)
Theorem C102_become_in_constructor_refuted :
  exists (ctor : prog) (ts : list turn),
    history 3 ctor ts Return =
      [Did (OBecome (Some (Obj 1)) false) (Value (Pointer None)); Born; Called Own 5; Ended false; Dying; Freed false].
Proof. exists (say (OBecome (Some (Obj 1)) false) Return), [TMessage 5 (fun _ => Return)]. reflexivity. Qed.
Print Assumptions C102_become_in_constructor_refuted.
(* ... and the default kind of become is undefined there; a null one terminates *)
Theorem C102_constructor_calls_refuted :
  history 3 (say (OBecome (Some (Obj 1)) true) Return) [] Return = [Did (OBecome (Some (Obj 1)) true) Undefined] /\
  history 3 (say (OBecome None true) Return) [] Return = [Did (OBecome None true) Terminates] /\
  history 3 (say OUnbecome Return) [] Return = [Did OUnbecome Terminates].
Proof. repeat split. Qed.
Print Assumptions C102_constructor_calls_refuted.
(* a constructor that throws is reported, and then its null cell is used: for
   example because it asked for self() and did not catch *)
Theorem C102_throwing_constructor_refuted :
  exists ctor : prog,
    history 3 ctor [] Return = [Did OSelf Thrown; NoCell] /\ exists s, life 3 ctor [] Return = Stop s.
Proof.
  exists (Ask OSelf (fun v => match v with Thrown => Throw | _ => Return end)). split; [reflexivity|].
  eexists. reflexivity.
Qed.
Print Assumptions C102_throwing_constructor_refuted.
(* pre_start and post_stop have no sender *)
Theorem C102_sender_in_hook_refuted :
  exists ts : list turn, history 3 Return ts Return = [Born; Hook; Did OSender Undefined].
Proof. exists [THook (say OSender Return)]. reflexivity. Qed.
Print Assumptions C102_sender_in_hook_refuted.
(* the logger is destroyed before the actor *)
Theorem C102_log_in_destructor_refuted :
  exists dtor : prog, history 3 Return [] dtor = [Born; Dying; Did OSelf (Value (Ref 3)); Did OLog Undefined].
Proof. exists (say OSelf (say OLog Return)). reflexivity. Qed.
Print Assumptions C102_log_in_destructor_refuted.
(* the stack does not keep a behaviour alive *)
Theorem C102_behaviours_are_not_owned_refuted :
  exists ts : list turn,
    history 3 Return ts Return =
      [Born; Called Own 5; Did (OBecome (Some (Obj 1)) true) (Value (Pointer (Some Own)));
       Did (ODelete 1) (Value Nothing); Ended false; CalledDead 1].
Proof.
  exists [TMessage 5 (fun _ => say (OBecome (Some (Obj 1)) true) (say (ODelete 1) Return)); TMessage 6 (fun _ => Return)].
  reflexivity.
Qed.
Print Assumptions C102_behaviours_are_not_owned_refuted.
