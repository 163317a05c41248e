(* C89: the vector in a debug build. *)
From Coq Require Import List Bool Arith Lia.
From Verif Require Import VecModel VecWorld VecSpec VecProofs VecRaw VecOps VecRun VecProps DebugModel DebugSpec DebugProofs.
Import ListNotations.

Section Props.
Context {V : Type}.

(* in every state a program can reach, whatever throws: an assertion stops a legal
   operation exactly in the cases listed in halts, and otherwise the operation
   does what it does in a release build *)
Theorem C89_stops_exactly : forall fails nomem half vs (m : @mem V) ls op, reach fails nomem half vs m ls ->
  legal ls op -> (inserts op -> forall t, nomem t = false) ->
  dexec fails nomem half op vs m =
    if halts op ls (map (fun v => cap (vraw v)) vs) then Stop else Run (exec fails nomem half op vs m).
Proof. intros fails nomem half vs m ls op R L NI. apply dexec_spec; auto. eapply reach_good; eauto. Qed.

(* the destructors stop nothing, in any such state *)
Theorem C89_destructors : forall fails nomem half vs (m : @mem V) ls, reach fails nomem half vs m ls ->
  exists m', ddestruct_all vs m = Run (Ok tt m') /\ forall b, blk m' b = None.
Proof.
  intros fails nomem half vs m ls R. destruct (destruct_all_spec vs m ls (reach_good _ _ _ _ _ _ R)) as (m' & E & F).
  exists m'. split; auto. rewrite ddestruct_all_run; rewrite E; auto. discriminate.
Qed.

(* a program that constructs no vector of no elements, copies no empty one, gives
   no empty one zero values and assigns none to itself, runs in a debug build as
   in a release build *)
Theorem C89_debug_is_release : forall half (ops : list (@vop V)), legal_all ops [] -> prudent_play ops [] ->
  exists vs m, drun never never half ops [] mem0 = Some (Some (errors ops [], vs, m)) /\
    run never never half ops [] mem0 = Some (errors ops [], vs, m) /\ Forall2 (sees m) vs (play ops []).
Proof.
  intros half ops L P. destruct (C06_vectors_are_lists half ops L) as (vs & m & E & S & _).
  exists vs, m. split; auto. rewrite (drun_quiet never never half (fun _ => eq_refl) (fun _ => eq_refl) ops [] mem0 [] wgood0 L P).
  rewrite E. reflexivity.
Qed.

End Props.

(* C89: legal programs that a release build runs to their end and a debug build
   stops: a copy of an empty vector, assignment of an empty one, a vector of no
   elements, no values for a vector without memory, assignment to itself *)
Definition small (op : @vop nat) : list (@vop nat) := [MakeEmpty; MakeEmpty; PushBack 1 (Val 7); op].
Definition stopped (op : @vop nat) : Prop :=
  legal_all (small op) [] /\ (exists fl vs m, run never never 100 (small op) [] mem0 = Some (fl, vs, m)) /\
  drun never never 100 (small op) [] mem0 = None.
Theorem C89_debug_stops_legal_refuted : exists ops : list (@vop nat),
  ops = [MakeCopy 0; CopyAssign 1 0; Make 0 (Val 1); MakeRange []; Assign 0 0 (Val 1); CopyAssign 1 1; MoveAssign 1 1] /\
  Forall stopped ops.
Proof.
  eexists. split; [reflexivity|].
  repeat (apply Forall_cons; [split; [|split; [do 3 eexists; vm_compute; reflexivity|vm_compute; reflexivity]];
    cbn [small legal_all effect result value values nth upd app]; repeat split; econstructor; reflexivity || exact I|]).
  apply Forall_nil.
Qed.

(* ---- examples meeting the hypotheses ---- *)
Example C89_tour : prudent_play tour [] /\ length tour = 18 /\
  exists vs m, drun never never 1000 tour [] mem0 = Some (Some (errors tour [], vs, m)) /\ length vs = 3.
Proof.
  split; [|split; [reflexivity|do 2 eexists; split; [vm_compute; reflexivity|reflexivity]]].
  vm_compute. repeat (split; try discriminate; auto).
Qed.
(* a state reached after a failed allocation, and an operation of each kind *)
Example C89_reached : exists vs (m : @mem nat), reach never (at_ 3) 1000 vs m [[7]; []] /\
  legal [[7]; []] (CopyAssign 0 1) /\ halts (CopyAssign 0 1) [[7]; []] (map (fun v => cap (vraw v)) vs) = true /\
  legal [[7]; []] (CopyAssign 1 0) /\ halts (CopyAssign 1 0) [[7]; []] (map (fun v => cap (vraw v)) vs) = false.
Proof.
  assert (S0 : forall (m : @mem nat), sees m vec0 []).
  { intros m. split; [reflexivity|split; [simpl; lia|]]. intros [|k] x H; discriminate. }
  do 2 eexists. split.
  - eapply R_step with (op := MakeEmpty) (ls := [[7]]).
    + eapply R_step with (op := PushBack 0 (Val 7)) (ls := [[]]).
      * eapply R_step with (op := MakeEmpty); [apply R_start|constructor|intros []|left; reflexivity|].
        constructor; [apply S0|constructor].
      * eapply L_push; reflexivity || exact I.
      * intros [].
      * left; vm_compute; reflexivity.
      * constructor; [|constructor]. split; [reflexivity|split; [simpl; lia|]]. intros [|[|k]] x H; try discriminate.
        exists 0. split; auto.
    + constructor.
    + intros [].
    + left; vm_compute; reflexivity.
    + constructor; [|constructor; [apply S0|constructor]].
      split; [reflexivity|split; [simpl; lia|]]. intros [|[|k]] x H; try discriminate. exists 0. split; auto.
  - split; [eapply L_cpas; reflexivity|]. split; [reflexivity|]. split; [eapply L_cpas; reflexivity|reflexivity].
Qed.

Print Assumptions C89_stops_exactly.
Print Assumptions C89_destructors.
Print Assumptions C89_debug_is_release.
Print Assumptions C89_debug_stops_legal_refuted.
