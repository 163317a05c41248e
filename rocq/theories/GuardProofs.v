From Coq Require Import List Bool Arith Lia.
From Verif Require Import LifeModel OptModel VarModel GuardModel.
Import ListNotations.

Section Opt.
Context {V : Type}.
Variable husk : V -> V.
Notation world := (world V bool).
Ltac go := cbv beta delta [dbind lift dstored is_stored fields requires LifeModel.bind ret undef throw set_fields].
Lemma dconstruct_ok i v (w : world) : vars w i = Some false -> dconstruct_ i v w = Some (construct_ i v w).
Proof. intro E. unfold dconstruct_, sconstruct, construct_. go. rewrite E. cbn [negb]. rewrite E. cbn [negb]. destruct (construct i 0 v w); reflexivity. Qed.
Lemma dmove_construct_ok i j (w : world) : vars w i = Some false -> dmove_construct_ husk i j w = Some (OptModel.move_construct_ husk i j w).
Proof. intro E. unfold dmove_construct_, smove_construct, OptModel.move_construct_. go. rewrite E. cbn [negb]. rewrite E. cbn [negb].
  destruct (LifeModel.move_construct husk i 0 j 0 w); reflexivity. Qed.
Lemma ddestroy_ok i (w : world) : ddestroy_ i w = Some (destroy_ i w).
Proof. unfold ddestroy_, sdestroy, destroy_. go. destruct (vars w i) as [[]|] eqn:E; [|reflexivity|reflexivity]. rewrite E.
  destruct (destroy i 0 w); reflexivity. Qed.
Lemma destroy_empty i (w w' : world) x : destroy_ i w = Done x w' -> vars w' i = Some false.
Proof.
  unfold destroy_, is_stored, fields, LifeModel.bind. destruct (vars w i) as [[]|] eqn:E; [|intro H; injection H as _ <-; exact E|discriminate].
  unfold destroy. destruct (cells w i 0); [|discriminate]. unfold set_fields. intro H. injection H as _ <-.
  cbn. unfold upd. rewrite Nat.eqb_refl. reflexivity.
Qed.
Lemma destroy_throws i (w w' : world) : destroy_ i w <> Threw w'.
Proof.
  unfold destroy_, is_stored, fields, LifeModel.bind. destruct (vars w i) as [[]|] eqn:E; try discriminate.
  unfold destroy. destruct (cells w i 0); discriminate.
Qed.
Lemma dcopy_constructor_ok i j (w : world) : vars w i = Some false -> dcopy_constructor_ i j w = Some (copy_constructor_ i j w).
Proof.
  intro E. unfold dcopy_constructor_, copy_constructor_. go. destruct (vars w j) as [[]|]; try reflexivity.
  unfold read. destruct (cells w j 0); [|reflexivity]. apply dconstruct_ok, E.
Qed.
Lemma dmove_constructor_ok i j (w : world) : vars w i = Some false -> dmove_constructor_ husk i j w = Some (move_constructor_ husk i j w).
Proof.
  intro E. unfold dmove_constructor_, move_constructor_. go. destruct (vars w j) as [[]|]; try reflexivity.
  rewrite dmove_construct_ok by exact E. destruct (OptModel.move_construct_ husk i j w); try reflexivity. apply ddestroy_ok.
Qed.
Lemma then_construct i (m : nat -> @D V bool unit) (r : nat -> @M V bool unit) (w : world) :
  (forall w', vars w' i = Some false -> m i w' = Some (r i w')) ->
  dbind (ddestroy_ i) (fun _ => m i) w = Some (LifeModel.bind (destroy_ i) (fun _ => r i) w).
Proof.
  intro H. unfold dbind, LifeModel.bind. rewrite ddestroy_ok. destruct (destroy_ i w) eqn:E; try reflexivity.
  apply H. eapply destroy_empty, E.
Qed.
Lemma dcreate_ok i (m : @D V bool unit) (r : @M V bool unit) (w : world) :
  (forall w', vars w' i = Some false -> m w' = Some (r w')) -> dcreate1 i m w = Some (OptModel.create1 i r w).
Proof.
  intro H. unfold dcreate1, dcreate, OptModel.create1, create. destruct (vars w i); [reflexivity|].
  rewrite H by (cbn; unfold upd; rewrite Nat.eqb_refl; reflexivity). reflexivity.
Qed.

(* what the assertions stop *)
Definition stops (o : OptModel.op V) (w : world) : bool :=
  match o with
  | OptModel.CopyAssign i j | OptModel.MoveAssign i j => i =? j
  | EmplaceFrom _ j => match vars w j with Some false => true | _ => false end
  | _ => false
  end.
Lemma oexec_ok o (w : world) : oexec husk o w = if stops o w then None else Some (OptModel.exec husk o w).
Proof.
  destruct o; cbn [oexec stops OptModel.exec].
  - apply dcreate_ok. reflexivity.
  - apply dcreate_ok. intros. apply dconstruct_ok; assumption.
  - apply dcreate_ok. intros. apply dcopy_constructor_ok; assumption.
  - apply dcreate_ok. intros. apply dmove_constructor_ok; assumption.
  - apply dcreate_ok. intros w' E. unfold dfilter_copy, filter_copy, dbind, lift, LifeModel.bind at 1.
    destruct (exists_ j p w') as [[] w2|w2|] eqn:X; try reflexivity. apply dcopy_constructor_ok.
    revert X. unfold exists_, is_stored, fields, read, LifeModel.bind, ret.
    destruct (vars w' j) as [[]|]; try discriminate. destruct (cells w' j 0); try discriminate. intro X. injection X as _ <-. exact E.
  - apply dcreate_ok. intros w' E. unfold dfilter_move, filter_move, dbind, lift, LifeModel.bind at 1.
    destruct (exists_ j p w') as [[] w2|w2|] eqn:X; try reflexivity. apply dmove_constructor_ok.
    revert X. unfold exists_, is_stored, fields, read, LifeModel.bind, ret.
    destruct (vars w' j) as [[]|]; try discriminate. destruct (cells w' j 0); try discriminate. intro X. injection X as _ <-. exact E.
  - apply dcreate_ok. intros w' E. unfold dmap_, map_. go. destruct (vars w' j) as [[]|]; try reflexivity.
    unfold read. destruct (cells w' j 0); [|reflexivity]. apply dconstruct_ok, E.
  - unfold dbind, lift, LifeModel.bind. rewrite ddestroy_ok. destruct (destroy_ i w); reflexivity.
  - exact (then_construct i (fun i => dconstruct_ i v) (fun i => construct_ i v) w (dconstruct_ok i v)).
  - unfold demplace_from, dget_unsafe. unfold dbind at 1. destruct (vars w j) as [[]|]; try reflexivity.
    + apply (then_construct i (fun i => dbind (lift (read j 0)) (fun v => dconstruct_ i v)) (fun i => LifeModel.bind (read j 0) (fun v => construct_ i v))).
      intros w' E. unfold dbind, lift, LifeModel.bind, read. destruct (cells w' j 0); [|reflexivity]. apply dconstruct_ok, E.
    + apply (then_construct i (fun i => dbind (lift (read j 0)) (fun v => dconstruct_ i v)) (fun i => LifeModel.bind (read j 0) (fun v => construct_ i v))).
      intros w' E. unfold dbind, lift, LifeModel.bind, read. destruct (cells w' j 0); [|reflexivity]. apply dconstruct_ok, E.
  - apply ddestroy_ok.
  - unfold dcopy_assign. unfold dbind at 1, requires. destruct (i =? j); [reflexivity|]. cbn [negb].
    unfold OptModel.copy_assign_. unfold dbind at 1 2, dstored at 1 2, lift at 1 2, is_stored, LifeModel.bind at 1 2, fields.
    destruct (vars w i) as [b|]; [|reflexivity]. destruct (vars w j) as [c|]; [|reflexivity].
    destruct (b && c).
    + unfold dbind, lift, LifeModel.bind, read. destruct (cells w j 0); reflexivity.
    + destruct c.
      * apply (then_construct i (fun i => dbind (lift (read j 0)) (fun v => dconstruct_ i v)) (fun i => LifeModel.bind (read j 0) (fun v => construct_ i v))).
        intros w' E. unfold dbind, lift, LifeModel.bind, read. destruct (cells w' j 0); [|reflexivity]. apply dconstruct_ok, E.
      * apply (then_construct i (fun _ => lift (ret tt)) (fun _ => ret tt)). reflexivity.
  - unfold dmove_assign. unfold dbind at 1, requires. destruct (i =? j); [reflexivity|]. cbn [negb].
    unfold OptModel.move_assign_. unfold dbind at 1 2, dstored at 1 2, lift at 1 2, is_stored, LifeModel.bind at 1 2, fields.
    destruct (vars w i) as [b|]; [|reflexivity]. destruct (vars w j) as [c|]; [|reflexivity].
    destruct (b && c); [reflexivity|]. destruct c.
    + apply (then_construct i (fun i => dmove_construct_ husk i j) (fun i => OptModel.move_construct_ husk i j)).
      intros w' E. apply dmove_construct_ok, E.
    + apply (then_construct i (fun _ => lift (ret tt)) (fun _ => ret tt)). reflexivity.
  - unfold dswap_, swap_. unfold dbind at 1 2, dstored at 1 2, lift at 1 2, is_stored, LifeModel.bind at 1 2, fields.
    destruct (vars w i) as [b|] eqn:E; [|reflexivity]. destruct (vars w j) as [c|]; [|reflexivity].
    destruct b, c; cbn [andb]; try reflexivity; try apply ddestroy_ok. apply dmove_constructor_ok, E.
Qed.
End Opt.

Section Var.
Context {V : Type}.
Variable husk : V -> V.
Notation world := (world (nat * V) vf).
(* the variable exists and has no alternative *)
Definition valueless (i : nat) (w : world) : bool :=
  match vars w i with Some f => negb (has_index (index f)) | None => false end.
Definition vstops (o : VarModel.op V) (w : world) : bool :=
  match o with
  | CopyAssign i j | MoveAssign i j => (i =? j) || valueless i w
  | Emplace i _ _ => valueless i w
  | _ => false
  end.
Lemma vexec_ok o (w : world) : vexec husk o w = if vstops o w then None else Some (VarModel.exec husk o w).
Proof.
  destruct o; cbn [vexec vstops VarModel.exec]; try reflexivity; unfold vemplace, vcopy_assign, vmove_assign, valueless;
    unfold dbind, lift, requires; try destruct (i =? j); cbn [negb orb]; try reflexivity; unfold fields;
    destruct (vars w i) as [f|] eqn:E; try (destruct (has_index (index f)); reflexivity).
  - unfold VarModel.emplace, LifeModel.bind at 1, fields. rewrite E. reflexivity.
  - unfold VarModel.copy_assign_, LifeModel.bind at 1, fields. rewrite E. reflexivity.
  - unfold VarModel.move_assign_, LifeModel.bind at 1, fields. rewrite E. reflexivity.
Qed.
Lemma valueless_undef i (w : world) : valueless i w = true ->
  (forall t v, VarModel.emplace i t v w = Undef) /\ (forall j, VarModel.copy_assign_ i j w = Undef \/ exists f, vars w j = Some f) .
Proof.
  unfold valueless. destruct (vars w i) as [f|] eqn:E; [|discriminate]. intro H. destruct (index f) eqn:X; [discriminate|]. split.
  - intros t v. unfold VarModel.emplace, dispatch, LifeModel.bind, fields. rewrite E, E. rewrite X. reflexivity.
  - intro j. unfold VarModel.copy_assign_, LifeModel.bind, fields. rewrite E. destruct (vars w j); [right; eauto|left; reflexivity].
Qed.
Lemma vstops_undef o (w : world) : vstops o w = true ->
  VarModel.exec husk o w = Undef \/ exists i, o = CopyAssign i i \/ o = MoveAssign i i.
Proof.
  destruct o; cbn [vstops VarModel.exec]; try discriminate.
  - intro H. left. apply valueless_undef, H.
  - destruct (Nat.eqb_spec i j) as [->|N]; [right; eauto|]. cbn [orb]. unfold valueless. intro H. left.
    destruct (vars w i) as [f|] eqn:E; [|discriminate]. destruct (index f) eqn:X; [discriminate|].
    unfold VarModel.copy_assign_, dispatch, LifeModel.bind, fields. rewrite E. destruct (vars w j); [|reflexivity]. rewrite X.
    unfold same_index. destruct (index v); rewrite E; reflexivity.
  - destruct (Nat.eqb_spec i j) as [->|N]; [right; eauto|]. cbn [orb]. unfold valueless. intro H. left.
    destruct (vars w i) as [f|] eqn:E; [|discriminate]. destruct (index f) eqn:X; [discriminate|].
    unfold VarModel.move_assign_, dispatch, LifeModel.bind, fields. rewrite E. destruct (vars w j); [|reflexivity]. rewrite X.
    unfold same_index. destruct (index v); rewrite E; reflexivity.
Qed.
End Var.
