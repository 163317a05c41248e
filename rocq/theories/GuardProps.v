(* C93: optional and variant in a debug build *)
From Coq Require Import List Bool Arith Lia.
From Verif Require Import LifeModel OptModel VarModel GuardModel GuardProofs.
From Verif Require OptSpec VarSpec OptProofs VarProofs OptProps VarProps.
Import ListNotations.

Definition self_o {V} (o : OptModel.op V) : Prop := exists i, o = OptModel.CopyAssign i i \/ o = OptModel.MoveAssign i i.
Definition self_v {V} (o : VarModel.op V) : Prop := exists i, o = CopyAssign i i \/ o = MoveAssign i i.

(* In any state, an operation of optional does what it does in a release build, except that
   assigning an optional to itself and emplacing from the value of an empty optional stop. *)
Theorem C93_optional : forall V (husk : V -> V) o w,
  (oexec husk o w = None /\ (self_o o \/ exists i j, o = EmplaceFrom i j /\ vars w j = Some false)) \/
  (oexec husk o w = Some (OptModel.exec husk o w) /\ ~ self_o o /\ forall i j, o = EmplaceFrom i j -> vars w j <> Some false).
Proof.
  intros V husk o w. rewrite oexec_ok.
  assert (N : forall (A : Prop), ((exists i, o = OptModel.CopyAssign i i \/ o = OptModel.MoveAssign i i) -> A) -> self_o o -> A)
    by (intros A H [i Hi]; apply H; eauto).
  destruct o; cbn [stops]; try (right; split; [reflexivity|]; split; [intros [x [E|E]]; discriminate E|discriminate]).
  - destruct (vars w j) as [[]|] eqn:E.
    + right. split; [reflexivity|]. split; [intros [x [X|X]]; discriminate X|]. intros a b X. injection X as <- <-. rewrite E. discriminate.
    + left. split; [reflexivity|]. right. eauto.
    + right. split; [reflexivity|]. split; [intros [x [X|X]]; discriminate X|]. intros a b X. injection X as <- <-. rewrite E. discriminate.
  - destruct (Nat.eqb_spec i j) as [->|Hn].
    + left. split; [reflexivity|]. left. exists j. auto.
    + right. split; [reflexivity|]. split; [|discriminate]. intros [x [X|X]]; [|discriminate X]. injection X as X Y. congruence.
  - destruct (Nat.eqb_spec i j) as [->|Hn].
    + left. split; [reflexivity|]. left. exists j. auto.
    + right. split; [reflexivity|]. split; [|discriminate]. intros [x [X|X]]; [discriminate X|]. injection X as X Y. congruence.
Qed.
Print Assumptions C93_optional.

(* so what C21 says holds in a debug build, if no optional is assigned to itself *)
Theorem C93_optional_simulation : forall V (husk : V -> V),
  exists Rel : world V bool -> OptSpec.state V -> Prop,
    (forall oracle, Rel (start oracle) OptSpec.nothing) /\
    (forall w st o, Rel w st -> OptSpec.legal o st -> ~ self_o o ->
       exists r w' st', oexec husk o w = Some r /\ OptSpec.step husk o st r st' w' /\ Rel w' st') /\
    (forall w st, Rel w st -> OptSpec.seen w st /\ OptSpec.balanced w st).
Proof.
  intros V husk. destruct (OptProofs.simulation husk) as (Rel & H1 & H2 & H3). exists Rel. split; [exact H1|]. split; [|exact H3].
  intros w st o HR HL HS. destruct (H2 w st o HR HL) as (w' & st' & Hst & HR').
  exists (OptModel.exec husk o w), w', st'. split; [|split; assumption].
  destruct (C93_optional V husk o w) as [[_ [X|(i & j & -> & E)]]|[X _]]; [contradiction| |exact X].
  exfalso. destruct HL as (_ & (v & Hf) & _). destruct (H3 w st HR) as [[Hs _] _]. destruct (Hs j v Hf) as [G _].
  revert G. unfold OptModel.get, is_stored, fields, LifeModel.bind, throw. rewrite E. discriminate.
Qed.
Print Assumptions C93_optional_simulation.

(* Assigning an optional to itself keeps every value in a release build and is stopped in a debug build. *)
Theorem C93_optional_self_refuted : exists (l : list (OptModel.op nat)) w w', OptSpec.run S l (start []) = Some w /\
  OptSpec.legal (OptModel.CopyAssign 0 0) (OptSpec.effects S l OptSpec.nothing) /\
  OptModel.exec S (OptModel.CopyAssign 0 0) w = Done tt w' /\ OptModel.get 0 w' = Done 5 w' /\
  drun (oexec S) (l ++ [OptModel.CopyAssign 0 0]) (start []) = Stopped.
Proof.
  exists [OptModel.NewValue 0 5]. eexists. eexists. split; [vm_compute; reflexivity|].
  split; [vm_compute; split; discriminate|]. split; [vm_compute; reflexivity|]. split; vm_compute; reflexivity.
Qed.
Print Assumptions C93_optional_self_refuted.

(* In any state, an operation of variant does what it does in a release build, or it is stopped;
   only assigning a variant to itself, and what is undefined in a release build, is stopped:
   assigning to and emplacing into a variant without alternative. *)
Theorem C93_variant : forall V (husk : V -> V) o w,
  (vexec husk o w = None /\ (self_v o \/ VarModel.exec husk o w = Undef /\
     exists i, (exists f, vars w i = Some f /\ index f = None) /\
       ((exists t v, o = Emplace i t v) \/ exists j, o = CopyAssign i j \/ o = MoveAssign i j))) \/
  (vexec husk o w = Some (VarModel.exec husk o w) /\ ~ self_v o).
Proof.
  intros V husk o w. rewrite vexec_ok. destruct (vstops o w) eqn:E.
  - left. split; [reflexivity|]. destruct (vstops_undef husk o w E) as [U|(i & H)]; [|left; exists i; exact H].
    destruct o; cbn [vstops] in E; try discriminate.
    + right. split; [exact U|]. exists i. split; [|eauto]. unfold valueless in E. destruct (vars w i) as [f|]; [|discriminate].
      exists f. split; [reflexivity|]. destruct (index f); [discriminate|reflexivity].
    + destruct (Nat.eqb_spec i j) as [->|N]; [left; exists j; auto|]. right. split; [exact U|]. exists i. split; [|eauto].
      cbn in E. unfold valueless in E. destruct (vars w i) as [f|]; [|discriminate].
      exists f. split; [reflexivity|]. destruct (index f); [discriminate|reflexivity].
    + destruct (Nat.eqb_spec i j) as [->|N]; [left; exists j; auto|]. right. split; [exact U|]. exists i. split; [|eauto].
      cbn in E. unfold valueless in E. destruct (vars w i) as [f|]; [|discriminate].
      exists f. split; [reflexivity|]. destruct (index f); [discriminate|reflexivity].
  - right. split; [reflexivity|]. intros [i [-> | ->]]; cbn in E; rewrite Nat.eqb_refl in E; discriminate.
Qed.
Print Assumptions C93_variant.

(* a program that is defined in a release build and assigns no variant to itself: both builds agree *)
Theorem C93_variant_histories : forall V (husk : V -> V) l w w',
  VarSpec.run husk l w = Some w' -> (forall o, In o l -> ~ self_v o) -> drun (vexec husk) l w = Finished w'.
Proof.
  intros V husk l. induction l as [|o l IH]; intros w w' H HS; cbn in H |- *; [congruence|].
  destruct (C93_variant V husk o w) as [[_ [X|[U _]]]|[E _]].
  - destruct (HS o (or_introl eq_refl) X).
  - rewrite U in H. discriminate.
  - rewrite E. destruct (VarModel.exec husk o w); try discriminate; apply IH; auto; intros; apply HS; right; assumption.
Qed.
Print Assumptions C93_variant_histories.

(* so what C22 says holds in a debug build *)
Theorem C93_variant_simulation : forall V (husk : V -> V),
  exists Rel : world (nat * V) vf -> VarSpec.state V -> Prop,
    (forall oracle, Rel (start oracle) VarSpec.nothing) /\
    (forall w st o, Rel w st -> VarSpec.legal o st -> ~ self_v o ->
       exists threw w', vexec husk o w = Some (VarSpec.result threw w') /\ Rel w' (VarSpec.after husk o st threw) /\
         (VarSpec.must_throw o st = true -> threw = true)) /\
    (forall w st, Rel w st -> VarSpec.seen w st /\ VarSpec.balanced w st).
Proof.
  intros V husk. destruct (VarProofs.simulation husk) as (Rel & H1 & H2 & H3). exists Rel. split; [exact H1|]. split; [|exact H3].
  intros w st o HR HL HS. destruct (H2 w st o HR HL) as (th & w' & E & HR' & Hm). exists th, w'. split; [|auto].
  destruct (C93_variant V husk o w) as [[_ [X|[U _]]]|[X _]]; [contradiction| |rewrite X, E; reflexivity].
  exfalso. rewrite U in E. destruct th; discriminate.
Qed.
Print Assumptions C93_variant_simulation.

(* type() of a variant without alternative stops instead of reading outside of the table *)
Theorem C93_type : forall V (w : world (nat * V) vf) i f, vars w i = Some f ->
  (index f = None -> vtype_of i w = None /\ type_of i w = Undef) /\
  (forall k t, index f = Some k -> nth_error (alts f) k = Some t -> vtype_of i w = Some (Done t w) /\ type_of i w = Done t w).
Proof.
  intros V w i f E. unfold vtype_of, type_of, dispatch, dbind, lift, requires, LifeModel.bind, fields. rewrite E. split.
  - intro X. rewrite X. cbn. rewrite E. split; reflexivity.
  - intros k t X Y. split; repeat (cbn; rewrite ?E, ?X, ?Y); reflexivity.
Qed.
Print Assumptions C93_type.

(* Assigning a variant to itself is right in a release build and stopped in a debug build. *)
Theorem C93_variant_self_refuted : exists (l : list (VarModel.op nat)) w w', VarSpec.run S l (start []) = Some w /\
  VarSpec.all_legal S (l ++ [CopyAssign 0 0]) VarSpec.nothing /\
  VarModel.exec S (CopyAssign 0 0) w = Done tt w' /\ VarModel.get 0 7 w' = Done 5 w' /\
  drun (vexec S) (l ++ [CopyAssign 0 0]) (start []) = Stopped.
Proof.
  exists [NewValue 0 [4; 7] 7 5]. eexists. eexists. split; [vm_compute; reflexivity|].
  split; [VarProps.legal_history|]. split; [vm_compute; reflexivity|]. split; vm_compute; reflexivity.
Qed.
Print Assumptions C93_variant_self_refuted.

(* The assertions look at the target only: copying a variant that was moved from reads outside
   of the table in a debug build too. *)
Theorem C93_source_unchecked_refuted : exists (l : list (VarModel.op nat)) w, VarSpec.all_legal S l VarSpec.nothing /\
  drun (vexec S) l (start []) = Finished w /\
  vexec S (CopyAssign 1 0) w = Some Undef /\ vexec S (NewCopy 2 0) w = Some Undef /\ vexec S (CopyAssign 0 1) w = None.
Proof.
  exists [NewValue 0 [4; 7] 7 5; NewMove 1 0]. eexists. split; [VarProps.legal_history|].
  split; [vm_compute; reflexivity|]. split; [vm_compute; reflexivity|]. split; vm_compute; reflexivity.
Qed.
Print Assumptions C93_source_unchecked_refuted.

(* ---- examples ---- *)
Example C93_ex_optional : exists w, drun (oexec S) [OptModel.NewValue 0 5; OptModel.New 1; OptModel.Swap 1 0; OptModel.CopyAssign 0 1; OptModel.Emplace 1 8] (start []) = Finished w /\
  OptModel.get 0 w = Done 5 w /\ OptModel.get 1 w = Done 8 w /\ oexec S (OptModel.EmplaceFrom 0 0) w = Some Undef.
Proof. eexists. split; [vm_compute; reflexivity|]. split; [|split]; vm_compute; reflexivity. Qed.
Example C93_ex_variant : exists w, VarSpec.run S VarProps.c22_history (start []) = Some w /\
  (forall o, In o VarProps.c22_history -> ~ self_v o) /\ drun (vexec S) VarProps.c22_history (start []) = Finished w /\
  vtype_of 2 w = Some (Done 7 w) /\ VarModel.get 2 7 w = Done 5 w.
Proof.
  eexists. split; [vm_compute; reflexivity|].
  split; [intros o Hin [i [E|E]]; subst o; cbn in Hin; repeat destruct Hin as [Hin|Hin]; try discriminate Hin; try contradiction; injection Hin; intros; congruence|].
  split; [vm_compute; reflexivity|]. split; vm_compute; reflexivity.
Qed.
