(* Proofs about optional. *)
From Coq Require Import List Bool Arith Lia.
From Coq Require Import Permutation.
From Verif Require Import LifeModel OptModel OptSpec.
Import ListNotations.

Section Proofs.
Context {V : Type}.
Variable husk : V -> V.

Local Notation world := (world V bool).
Local Notation state := (state V).

(* ---- counting the full optionals ---- *)

Definition counted (st : state) (n : nat) : Prop :=
  exists l, NoDup l /\ (forall i, In i l <-> full_in st i) /\ length l = n.

Definition fullb (x : option (option V)) : bool := match x with Some (Some _) => true | _ => false end.

Lemma full_in_b (st : state) i : full_in st i <-> fullb (st i) = true.
Proof.
  unfold full_in. destruct (st i) as [[v|]|]; cbn; split; try discriminate; eauto;
  intros [v' E]; discriminate.
Qed.

Lemma counted_ext (st st' : state) n : counted st n -> (forall i, fullb (st i) = fullb (st' i)) -> counted st' n.
Proof.
  intros [l [N [I L]]] E. exists l. split; [assumption|]. split; [|assumption].
  intros i. rewrite I, !full_in_b, E. reflexivity.
Qed.

Lemma put_same (st : state) i x : put st i x i = x.
Proof. unfold put. rewrite Nat.eqb_refl. reflexivity. Qed.

Lemma put_other (st : state) i x k : k <> i -> put st i x k = st k.
Proof. unfold put. intros H. apply Nat.eqb_neq in H. rewrite H. reflexivity. Qed.

Lemma counted_fill (st : state) n i x :
  counted st n -> fullb (st i) = false -> fullb x = true -> counted (put st i x) (S n).
Proof.
  intros [l [N [I L]]] E X. exists (i :: l). split.
  - constructor; [|assumption]. rewrite I, full_in_b, E. discriminate.
  - split; [|cbn; lia]. intros k. cbn. rewrite I, !full_in_b. destruct (Nat.eq_dec k i) as [->|D].
    + rewrite put_same. split; auto.
    + rewrite put_other by assumption. split; [intros [A|A]; [congruence|assumption]|auto].
Qed.

Lemma counted_clear (st : state) n i x :
  counted st n -> fullb (st i) = true -> fullb x = false -> exists m, n = S m /\ counted (put st i x) m.
Proof.
  intros [l [N [I L]]] E X.
  assert (A : In i l) by (rewrite I, full_in_b; assumption).
  destruct (in_split _ _ A) as [l1 [l2 ->]]. exists (length (l1 ++ l2)).
  rewrite app_length in L |- *. cbn in L. split; [lia|].
  exists (l1 ++ l2). split; [exact (NoDup_remove_1 _ _ _ N)|]. split; [|apply app_length].
  pose proof (NoDup_remove_2 _ _ _ N) as D. intros k. rewrite full_in_b.
  destruct (Nat.eq_dec k i) as [->|F].
  - rewrite put_same. split; [intros G; contradiction|congruence].
  - rewrite put_other by assumption. rewrite <- full_in_b, <- I, !in_app_iff. cbn.
    split; [tauto|]. intros [G|[G|G]]; auto. congruence.
Qed.

Lemma counted_keep (st : state) n i x :
  counted st n -> fullb (st i) = fullb x -> counted (put st i x) n.
Proof.
  intros C E. apply (counted_ext st); [assumption|]. intros k. destruct (Nat.eq_dec k i) as [->|D].
  - rewrite put_same. assumption.
  - rewrite put_other by assumption. reflexivity.
Qed.

(* ---- the simulation ---- *)

Definition flag (x : option (option V)) : option bool :=
  option_map (fun c => match c with Some _ => true | None => false end) x.
Definition held (x : option (option V)) : option V := match x with Some c => c | None => None end.

Definition R (w : world) (st : state) : Prop :=
  (forall i, vars w i = flag (st i)) /\
  (forall i k, cells w i k = match k with 0 => held (st i) | S _ => None end) /\
  lost w = 0 /\
  exists n, counted st n /\ built w = ended w + n.

Lemma R_start oracle : R (start oracle) nothing.
Proof.
  repeat split; cbn.
  - intros i k. destruct k; reflexivity.
  - exists 0. split; [|reflexivity]. exists []. split; [constructor|]. split; [|reflexivity].
    intros i. split; [intros []|]. intros [v E]. discriminate.
Qed.

Lemma R_vars_exist w st i : R w st -> st i <> None -> vars w i = flag (st i).
Proof. intros [A _] _. apply A. Qed.

End Proofs.

Ltac opt_unfold :=
  cbn [exec]; unfold create1, create, on_throw, construct_, move_construct_, destroy_, copy_constructor_,
    move_constructor_, swap_, copy_assign_, move_assign_, emplace, emplace_from, filter_copy, filter_move, map_,
    exists_, OptModel.get, get_or, is_stored, construct, move_construct, swap_objects, move_assign, assign,
    on_throw, bind, ret, throw, undef, next_throws, fields, set_fields, read, destroy, hollow, vanish, vanish_cells,
    count, set_cell, set_var.

Ltac opt_reduce :=
  repeat (cbn [cells vars built ended lost throws flag option_map held andb fst snd lives set_var set_cell count hollow vanish_cells keep_if];
          first
          [ progress (unfold upd; cbv beta)
          | rewrite Nat.eqb_refl
          | match goal with
            | H : ?a <> ?b |- context [?a =? ?b] => rewrite (proj2 (Nat.eqb_neq a b) H)
            | H : ?b <> ?a |- context [?a =? ?b] => rewrite (proj2 (Nat.eqb_neq a b) (not_eq_sym H))
            | Vs : forall i, vars ?w i = _ |- context [vars ?w ?i] => rewrite (Vs i)
            | Cs : forall i k, cells ?w i k = _ |- context [cells ?w ?i ?k] => rewrite (Cs i k)
            | st : OptSpec.state _, E : ?st ?i = _ |- context [?st ?i] => rewrite E
            | E : ?p ?v = _ |- context [if ?p ?v then _ else _] => rewrite E
            | E : throws ?w = _ |- context [throws ?w] => rewrite E
            end ]);
  cbn [cells vars built ended lost throws flag option_map held andb fst snd lives set_var set_cell count hollow vanish_cells keep_if].

(* run the operation: split on what the oracle says *)
Ltac opt_run :=
  do 5 opt_unfold;
  repeat (opt_reduce;
          match goal with
          | |- context [match ?l with [] => _ | _ :: _ => _ end] => destruct l eqn:?
          | |- context [if ?b then throw else _] => destruct b eqn:?
          | |- context [if ?b then (fun _ => Threw _) else _] => destruct b eqn:?
          | |- context [(if ?b then _ else _) _] => destruct b eqn:?
          end);
  opt_reduce.

Ltac opt_funs :=
  let x := fresh "x" in intros x;
  try (let k := fresh "k" in intros k; destruct k as [|k]);
  cbn [cells vars]; unfold effect, put, upd;
  opt_reduce;
  repeat (match goal with
          | |- context [?a =? ?b] => destruct (Nat.eqb_spec a b); [subst|]
          end; opt_reduce); try reflexivity; try congruence.

Section Steps.
Context {V : Type}.
Variable husk : V -> V.
Local Notation world := (world V bool).
Local Notation state := (state V).

Definition works (o : op V) (st : state) (w : world) : Prop :=
  exists w' st', step husk o st (exec husk o w) st' w' /\ R w' st'.

Lemma works_done o (st : state) w w' :
  exec husk o w = Done tt w' -> R w' (effect husk o st) -> works o st w.
Proof. intros E H. exists w', (effect husk o st). split; [|assumption]. left. split; [assumption|reflexivity]. Qed.

Lemma works_threw o (st : state) w w' st' :
  exec husk o w = Threw w' -> effect_of_throw o st st' -> R w' st' -> works o st w.
Proof. intros E T H. exists w', st'. split; [|assumption]. right. split; assumption. Qed.

Ltac start := intros H L; destruct H as [Vs [Cs [Ls [n [Cn Bn]]]]]; cbn [legal] in L.
Ltac fin := split; [opt_funs|split; [opt_funs|split; [opt_reduce; lia|]]].
Ltac same := fin; match goal with C : counted _ ?n |- _ => exists n end; split; [|opt_reduce; lia].
Ltac more := fin; match goal with C : counted _ ?n |- _ => exists (S n) end; split; [|opt_reduce; lia].

Lemma w_New i (w : world) (st : state) : R w st -> legal (New i) st -> works (New i) st w.
Proof.
  start. eapply works_done.
  - opt_run. reflexivity.
  - same. unfold effect. apply counted_keep; [assumption|]. rewrite L. reflexivity.
Qed.

Lemma w_NewValue i v (w : world) (st : state) : R w st -> legal (NewValue i v) st -> works (NewValue i v) st w.
Proof.
  start. destruct (throws w) as [|[] l] eqn:T.
  - eapply works_done; [opt_run; reflexivity|]. more.
    apply counted_fill; [assumption|rewrite L; reflexivity|reflexivity].
  - eapply works_threw with (st' := st); [opt_run; reflexivity|cbn; reflexivity|]. same. assumption.
  - eapply works_done; [opt_run; reflexivity|]. more.
    apply counted_fill; [assumption|rewrite L; reflexivity|reflexivity].
Qed.

Lemma w_NewCopy i j (w : world) (st : state) : R w st -> legal (NewCopy i j) st -> works (NewCopy i j) st w.
Proof.
  start. destruct L as [L L2]. assert (D : j <> i) by (intros ->; contradiction). unfold exists_in in L2.
  destruct (st j) as [[v|]|] eqn:J; [| |contradiction].
  - destruct (throws w) as [|[] l] eqn:T.
    + eapply works_done; [opt_run; reflexivity|]. more. cbn [effect]. rewrite J.
      apply counted_fill; [assumption|rewrite L; reflexivity|reflexivity].
    + eapply works_threw with (st' := st); [opt_run; reflexivity|cbn; reflexivity|]. same. assumption.
    + eapply works_done; [opt_run; reflexivity|]. more. cbn [effect]. rewrite J.
      apply counted_fill; [assumption|rewrite L; reflexivity|reflexivity].
  - eapply works_done; [opt_run; reflexivity|]. same. cbn [effect]. rewrite J.
    apply counted_keep; [assumption|]. rewrite L. reflexivity.
Qed.

Lemma counted_move (st : state) n i j v : counted st n -> i <> j -> st i = None -> st j = Some (Some v) ->
  counted (put (put st j (Some None)) i (Some (Some v))) n.
Proof.
  intros C D I J. destruct (counted_clear st n j (Some None) C) as [m [-> C2]]; [rewrite J; reflexivity|reflexivity|].
  apply counted_fill; [assumption| |reflexivity]. rewrite put_other by assumption. rewrite I. reflexivity.
Qed.

Lemma w_NewMove i j (w : world) (st : state) : R w st -> legal (NewMove i j) st -> works (NewMove i j) st w.
Proof.
  start. destruct L as [L L2]. assert (D : j <> i) by (intros ->; contradiction). unfold exists_in in L2.
  destruct (st j) as [[v|]|] eqn:J; [| |contradiction].
  - destruct (throws w) as [|[] l] eqn:T.
    + eapply works_done; [opt_run; reflexivity|]. same. cbn [effect]. rewrite J.
      apply counted_move; auto.
    + eapply works_threw with (st' := st); [opt_run; reflexivity|cbn; reflexivity|]. same. assumption.
    + eapply works_done; [opt_run; reflexivity|]. same. cbn [effect]. rewrite J.
      apply counted_move; auto.
  - eapply works_done; [opt_run; reflexivity|]. same. cbn [effect]. rewrite J.
    apply (counted_ext st); [assumption|]. intros k. unfold put.
    destruct (Nat.eqb_spec k i) as [->|]; [rewrite L; reflexivity|].
    destruct (Nat.eqb_spec k j) as [->|]; [rewrite J; reflexivity|reflexivity].
Qed.

Lemma w_NewFilter i j p (w : world) (st : state) :
  R w st -> legal (NewFilter i j p) st -> works (NewFilter i j p) st w.
Proof.
  start. destruct L as [L L2]. assert (D : j <> i) by (intros ->; contradiction). unfold exists_in in L2.
  destruct (st j) as [[v|]|] eqn:J; [| |contradiction].
  - destruct (p v) eqn:P.
    + destruct (throws w) as [|[] l] eqn:T.
      * eapply works_done; [opt_run; reflexivity|]. more; [..|cbn [effect]; rewrite J; cbn; rewrite P].
        apply counted_fill; [assumption|rewrite L; reflexivity|reflexivity].
      * eapply works_threw with (st' := st); [opt_run; reflexivity|cbn; reflexivity|]. same. assumption.
      * eapply works_done; [opt_run; reflexivity|]. more. cbn [effect]. rewrite J. cbn. rewrite P.
        apply counted_fill; [assumption|rewrite L; reflexivity|reflexivity].
    + eapply works_done; [opt_run; reflexivity|]. same. cbn [effect]. rewrite J. cbn. rewrite P.
      apply counted_keep; [assumption|]. rewrite L. reflexivity.
  - eapply works_done; [opt_run; reflexivity|]. same. cbn [effect]. rewrite J.
    apply counted_keep; [assumption|]. rewrite L. reflexivity.
Qed.

Lemma w_NewFilterMove i j p (w : world) (st : state) :
  R w st -> legal (NewFilterMove i j p) st -> works (NewFilterMove i j p) st w.
Proof.
  start. destruct L as [L L2]. assert (D : j <> i) by (intros ->; contradiction). unfold exists_in in L2.
  destruct (st j) as [[v|]|] eqn:J; [| |contradiction].
  - destruct (p v) eqn:P.
    + destruct (throws w) as [|[] l] eqn:T.
      * eapply works_done; [opt_run; reflexivity|]. same. cbn [effect]. rewrite J, P. apply counted_move; auto.
      * eapply works_threw with (st' := st); [opt_run; reflexivity|cbn; reflexivity|]. same. assumption.
      * eapply works_done; [opt_run; reflexivity|]. same. cbn [effect]. rewrite J, P. apply counted_move; auto.
    + eapply works_done; [opt_run; reflexivity|]. same. cbn [effect]. rewrite J, P.
      apply counted_keep; [assumption|]. rewrite L. reflexivity.
  - eapply works_done; [opt_run; reflexivity|]. same. cbn [effect]. rewrite J.
    apply counted_keep; [assumption|]. rewrite L. reflexivity.
Qed.

Lemma w_NewMap i j f (w : world) (st : state) : R w st -> legal (NewMap i j f) st -> works (NewMap i j f) st w.
Proof.
  start. destruct L as [L L2]. assert (D : j <> i) by (intros ->; contradiction). unfold exists_in in L2.
  destruct (st j) as [[v|]|] eqn:J; [| |contradiction].
  - destruct (throws w) as [|[] l] eqn:T.
    + eapply works_done; [opt_run; reflexivity|]. more. cbn [effect]. rewrite J.
      apply counted_fill; [assumption|rewrite L; reflexivity|reflexivity].
    + eapply works_threw with (st' := st); [opt_run; reflexivity|cbn; reflexivity|]. same. assumption.
    + eapply works_done; [opt_run; reflexivity|]. more. cbn [effect]. rewrite J.
      apply counted_fill; [assumption|rewrite L; reflexivity|reflexivity].
  - eapply works_done; [opt_run; reflexivity|]. same. cbn [effect]. rewrite J.
    apply counted_keep; [assumption|]. rewrite L. reflexivity.
Qed.

Lemma counted_S (st : state) n i v x : counted st n -> st i = Some (Some v) -> fullb x = false ->
  exists m, n = S m /\ counted (put st i x) m.
Proof. intros C E X. apply counted_clear; [assumption|rewrite E; reflexivity|assumption]. Qed.

Ltac fewer C L x := fin; destruct (counted_S _ _ _ _ x C L eq_refl) as [m [-> C2]]; exists m; split; [|opt_reduce; lia].

Lemma w_Delete i (w : world) (st : state) : R w st -> legal (Delete i) st -> works (Delete i) st w.
Proof.
  start. unfold exists_in in L. destruct (st i) as [[v|]|] eqn:I; [| |contradiction].
  - eapply works_done; [opt_run; reflexivity|]. fewer Cn I (@None (option V)). assumption.
  - eapply works_done; [opt_run; reflexivity|]. same. apply counted_keep; [assumption|]. rewrite I. reflexivity.
Qed.

Lemma w_Reset i (w : world) (st : state) : R w st -> legal (Reset i) st -> works (Reset i) st w.
Proof.
  start. unfold exists_in in L. destruct (st i) as [[v|]|] eqn:I; [| |contradiction].
  - eapply works_done; [opt_run; reflexivity|]. fewer Cn I (Some (@None V)). assumption.
  - eapply works_done; [opt_run; reflexivity|]. same. apply counted_keep; [assumption|]. rewrite I. reflexivity.
Qed.

Lemma w_Emplace i v (w : world) (st : state) : R w st -> legal (Emplace i v) st -> works (Emplace i v) st w.
Proof.
  start. unfold exists_in in L. destruct (st i) as [[u|]|] eqn:I; [| |contradiction].
  - destruct (throws w) as [|[] l] eqn:T.
    + eapply works_done; [opt_run; reflexivity|]. same. apply counted_keep; [assumption|]. rewrite I. reflexivity.
    + eapply works_threw with (st' := put st i (Some None)); [opt_run; reflexivity|cbn; reflexivity|].
      fewer Cn I (Some (@None V)). assumption.
    + eapply works_done; [opt_run; reflexivity|]. same. apply counted_keep; [assumption|]. rewrite I. reflexivity.
  - destruct (throws w) as [|[] l] eqn:T.
    + eapply works_done; [opt_run; reflexivity|]. more.
      apply counted_fill; [assumption|rewrite I; reflexivity|reflexivity].
    + eapply works_threw with (st' := put st i (Some None)); [opt_run; reflexivity|cbn; reflexivity|].
      same. apply counted_keep; [assumption|]. rewrite I. reflexivity.
    + eapply works_done; [opt_run; reflexivity|]. more.
      apply counted_fill; [assumption|rewrite I; reflexivity|reflexivity].
Qed.

Lemma w_EmplaceFrom i j (w : world) (st : state) :
  R w st -> legal (EmplaceFrom i j) st -> works (EmplaceFrom i j) st w.
Proof.
  start. destruct L as [L [[v J] D]]. unfold exists_in in L. destruct (st i) as [[u|]|] eqn:I; [| |contradiction].
  - destruct (throws w) as [|[] l] eqn:T.
    + eapply works_done; [opt_run; reflexivity|]. same. cbn [effect]. rewrite J.
      apply counted_keep; [assumption|]. rewrite I. reflexivity.
    + eapply works_threw with (st' := put st i (Some None)); [opt_run; reflexivity|cbn; reflexivity|].
      fewer Cn I (Some (@None V)). assumption.
    + eapply works_done; [opt_run; reflexivity|]. same. cbn [effect]. rewrite J.
      apply counted_keep; [assumption|]. rewrite I. reflexivity.
  - destruct (throws w) as [|[] l] eqn:T.
    + eapply works_done; [opt_run; reflexivity|]. more. cbn [effect]. rewrite J.
      apply counted_fill; [assumption|rewrite I; reflexivity|reflexivity].
    + eapply works_threw with (st' := put st i (Some None)); [opt_run; reflexivity|cbn; reflexivity|].
      same. apply counted_keep; [assumption|]. rewrite I. reflexivity.
    + eapply works_done; [opt_run; reflexivity|]. more. cbn [effect]. rewrite J.
      apply counted_fill; [assumption|rewrite I; reflexivity|reflexivity].
Qed.

Ltac fullness := intros k; cbn [effect]; unfold put;
  repeat (match goal with |- context [?a =? ?b] => destruct (Nat.eqb_spec a b); [subst|] end);
  opt_reduce; try reflexivity; try congruence.

Lemma w_CopyAssign i j (w : world) (st : state) :
  R w st -> legal (CopyAssign i j) st -> works (CopyAssign i j) st w.
Proof.
  start. destruct L as [L L2]. unfold exists_in in L, L2.
  destruct (Nat.eq_dec i j) as [<-|D].
  - destruct (st i) as [[u|]|] eqn:I; [| |contradiction].
    + destruct (throws w) as [|[] l] eqn:T.
      * eapply works_done; [opt_run; reflexivity|]. same. apply (counted_ext st); [assumption|]. fullness.
      * eapply works_threw with (st' := st); [opt_run; reflexivity|cbn; reflexivity|]. same. assumption.
      * eapply works_done; [opt_run; reflexivity|]. same. apply (counted_ext st); [assumption|]. fullness.
    + eapply works_done; [opt_run; reflexivity|]. same. apply (counted_ext st); [assumption|]. fullness.
  - destruct (st i) as [[u|]|] eqn:I; [| |contradiction]; (destruct (st j) as [[v|]|] eqn:J; [| |contradiction]).
    + destruct (throws w) as [|[] l] eqn:T.
      * eapply works_done; [opt_run; reflexivity|]. same. apply (counted_ext st); [assumption|]. fullness.
      * eapply works_threw with (st' := st); [opt_run; reflexivity|cbn; reflexivity|]. same. assumption.
      * eapply works_done; [opt_run; reflexivity|]. same. apply (counted_ext st); [assumption|]. fullness.
    + eapply works_done; [opt_run; reflexivity|]. cbn [effect]. rewrite J. fewer Cn I (Some (@None V)). assumption.
    + destruct (throws w) as [|[] l] eqn:T.
      * eapply works_done; [opt_run; reflexivity|]. more. cbn [effect]. rewrite J.
        apply counted_fill; [assumption|rewrite I; reflexivity|reflexivity].
      * eapply works_threw with (st' := st); [opt_run; reflexivity|cbn; reflexivity|]. same. assumption.
      * eapply works_done; [opt_run; reflexivity|]. more. cbn [effect]. rewrite J.
        apply counted_fill; [assumption|rewrite I; reflexivity|reflexivity].
    + eapply works_done; [opt_run; reflexivity|]. same. apply (counted_ext st); [assumption|]. fullness.
Qed.

Lemma w_MoveAssign i j (w : world) (st : state) :
  R w st -> legal (MoveAssign i j) st -> works (MoveAssign i j) st w.
Proof.
  start. destruct L as [L L2]. unfold exists_in in L, L2.
  destruct (Nat.eq_dec i j) as [<-|D].
  - destruct (st i) as [[u|]|] eqn:I; [| |contradiction].
    + destruct (throws w) as [|[] l] eqn:T.
      * eapply works_done; [opt_run; reflexivity|]. same. apply (counted_ext st); [assumption|]. fullness.
      * eapply works_threw with (st' := st); [opt_run; reflexivity|cbn; reflexivity|]. same. assumption.
      * eapply works_done; [opt_run; reflexivity|]. same. apply (counted_ext st); [assumption|]. fullness.
    + eapply works_done; [opt_run; reflexivity|]. same. apply (counted_ext st); [assumption|]. fullness.
  - destruct (st i) as [[u|]|] eqn:I; [| |contradiction]; (destruct (st j) as [[v|]|] eqn:J; [| |contradiction]).
    + destruct (throws w) as [|[] l] eqn:T.
      * eapply works_done; [opt_run; reflexivity|]. same. apply (counted_ext st); [assumption|]. fullness.
      * eapply works_threw with (st' := st); [opt_run; reflexivity|cbn; reflexivity|]. same. assumption.
      * eapply works_done; [opt_run; reflexivity|]. same. apply (counted_ext st); [assumption|]. fullness.
    + eapply works_done; [opt_run; reflexivity|]. fin.
      destruct (counted_S _ _ _ _ (Some (@None V)) Cn I eq_refl) as [m [-> C2]]; exists m; split; [|opt_reduce; lia].
      apply (counted_ext _ _ _ C2). fullness.
    + destruct (throws w) as [|[] l] eqn:T.
      * eapply works_done; [opt_run; reflexivity|]. more.
        apply (counted_ext (put st i (Some (Some v)))); [|fullness].
        apply counted_fill; [assumption|rewrite I; reflexivity|reflexivity].
      * eapply works_threw with (st' := st); [opt_run; reflexivity|cbn; reflexivity|]. same. assumption.
      * eapply works_done; [opt_run; reflexivity|]. more.
        apply (counted_ext (put st i (Some (Some v)))); [|fullness].
        apply counted_fill; [assumption|rewrite I; reflexivity|reflexivity].
    + eapply works_done; [opt_run; reflexivity|]. same. apply (counted_ext st); [assumption|]. fullness.
Qed.

Lemma swap_throw_spec (st st' : state) i j u v u' v' :
  st i = Some (Some u) -> st j = Some (Some v) ->
  st' i = Some (Some u') -> st' j = Some (Some v') -> (forall k, k <> i -> k <> j -> st' k = st k) ->
  effect_of_throw (Swap i j) st st'.
Proof.
  intros A B C D E. cbn. split; [assumption|].
  assert (F : forall k, fullb (st k) = fullb (st' k) /\ (st k = Some None <-> st' k = Some None)).
  { intros k. destruct (Nat.eq_dec k i) as [->|]; [rewrite A, C; split; [reflexivity|split; discriminate]|].
    destruct (Nat.eq_dec k j) as [->|]; [rewrite B, D; split; [reflexivity|split; discriminate]|].
    rewrite E by assumption. split; [reflexivity|tauto]. }
  split; intros k; [rewrite !full_in_b|unfold empty_in]; destruct (F k) as [F1 F2]; [rewrite F1; tauto|assumption].
Qed.

Lemma w_Swap i j (w : world) (st : state) : R w st -> legal (Swap i j) st -> works (Swap i j) st w.
Proof.
  start. destruct L as [L [L2 N]]. unfold exists_in in L, L2.
  destruct (Nat.eq_dec i j) as [<-|D].
  - destruct (st i) as [[u|]|] eqn:I; [| |contradiction].
    + destruct (throws w) as [|[] l] eqn:T.
      * eapply works_done; [opt_run; reflexivity|]. same. apply (counted_ext st); [assumption|]. fullness.
      * eapply works_threw with (st' := st);
          [opt_run; reflexivity|apply (swap_throw_spec _ _ _ _ u u u u); auto|]. same. assumption.
      * destruct l as [|[] l].
        -- eapply works_done; [opt_run; reflexivity|]. same. apply (counted_ext st); [assumption|]. fullness.
        -- eapply works_threw with (st' := put st i (Some (Some (husk u))));
             [opt_run; reflexivity|apply (swap_throw_spec _ _ _ _ u u (husk u) (husk u)); auto using put_same, put_other|].
           same. apply (counted_ext st); [assumption|]. fullness.
        -- destruct l as [|[] l].
           ++ eapply works_done; [opt_run; reflexivity|]. same. apply (counted_ext st); [assumption|]. fullness.
           ++ eapply works_threw with (st' := put st i (Some (Some (husk u))));
             [opt_run; reflexivity|apply (swap_throw_spec _ _ _ _ u u (husk u) (husk u)); auto using put_same, put_other|].
              same. apply (counted_ext st); [assumption|]. fullness.
           ++ eapply works_done; [opt_run; reflexivity|]. same. apply (counted_ext st); [assumption|]. fullness.
    + eapply works_done; [opt_run; reflexivity|]. same. apply (counted_ext st); [assumption|]. fullness.
  - destruct (st i) as [[u|]|] eqn:I; [| |contradiction]; (destruct (st j) as [[v|]|] eqn:J; [| |contradiction]).
    + destruct (throws w) as [|[] l] eqn:T.
      * eapply works_done; [opt_run; reflexivity|]. same. apply (counted_ext st); [assumption|]. fullness.
      * eapply works_threw with (st' := st);
          [opt_run; reflexivity|apply (swap_throw_spec _ _ _ _ u v u v); auto|]. same. assumption.
      * destruct l as [|[] l].
        -- eapply works_done; [opt_run; reflexivity|]. same. apply (counted_ext st); [assumption|]. fullness.
        -- eapply works_threw with (st' := put st i (Some (Some (husk u))));
             [opt_run; reflexivity|apply (swap_throw_spec _ _ _ _ u v (husk u) v); auto using put_same, put_other|].
           { rewrite put_other by auto. assumption. }
           same. apply (counted_ext st); [assumption|]. fullness.
        -- destruct l as [|[] l].
           ++ eapply works_done; [opt_run; reflexivity|]. same. apply (counted_ext st); [assumption|]. fullness.
           ++ eapply works_threw with (st' := put (put st j (Some (Some (husk v)))) i (Some (Some v)));
                [opt_run; reflexivity|apply (swap_throw_spec _ _ _ _ u v v (husk v)); auto using put_same|].
              { rewrite put_other by auto. apply put_same. }
              { intros k A B. rewrite !put_other by assumption. reflexivity. }
              same. apply (counted_ext st); [assumption|]. fullness.
           ++ eapply works_done; [opt_run; reflexivity|]. same. apply (counted_ext st); [assumption|]. fullness.
    + exfalso. apply N. split; [exists u|]; assumption.
    + destruct (throws w) as [|[] l] eqn:T.
      * eapply works_done; [opt_run; reflexivity|]. same. cbn [effect]. rewrite I, J.
        destruct (counted_S _ _ _ _ (Some (@None V)) Cn J eq_refl) as [m [-> C2]].
        apply counted_fill; [assumption|rewrite put_other by assumption; rewrite I; reflexivity|reflexivity].
      * eapply works_threw with (st' := st); [opt_run; reflexivity|cbn; split; [|split]; reflexivity|].
        same. assumption.
      * eapply works_done; [opt_run; reflexivity|]. same. cbn [effect]. rewrite I, J.
        destruct (counted_S _ _ _ _ (Some (@None V)) Cn J eq_refl) as [m [-> C2]].
        apply counted_fill; [assumption|rewrite put_other by assumption; rewrite I; reflexivity|reflexivity].
    + eapply works_done; [opt_run; reflexivity|]. same. apply (counted_ext st); [assumption|]. fullness.
Qed.

Theorem every_step_works o (w : world) (st : state) : R w st -> legal o st -> works o st w.
Proof.
  destruct o; [apply w_New|apply w_NewValue|apply w_NewCopy|apply w_NewMove|apply w_NewFilter|
    apply w_NewFilterMove|apply w_NewMap|apply w_Delete|apply w_Emplace|apply w_EmplaceFrom|apply w_Reset|
    apply w_CopyAssign|apply w_MoveAssign|apply w_Swap].
Qed.

Lemma R_seen (w : world) (st : state) : R w st -> seen w st.
Proof.
  intros [Vs [Cs _]]. split; intros i; [intros v|]; intros E; (split; [|split]);
    intros; opt_unfold; opt_reduce; reflexivity.
Qed.

Lemma R_balanced (w : world) (st : state) : R w st -> balanced w st.
Proof.
  intros [Vs [Cs [Ls [n [[l [N [I Le]]] Bn]]]]]. split; [assumption|]. split.
  - intros i k v. rewrite Cs. destruct k as [|k].
    + destruct (st i) as [[x|]|]; cbn; split; try discriminate; try (intros [_ H]; discriminate).
      * intros H. injection H as ->. auto.
      * intros [_ H]. congruence.
    + split; [discriminate|]. intros [H _]. discriminate.
  - intros f Nf If. rewrite Bn, <- Le. f_equal. apply Permutation_length.
    apply NoDup_Permutation; [assumption|assumption|]. intros i. rewrite I, If. reflexivity.
Qed.

Theorem simulation :
  exists Rel : world -> state -> Prop,
    (forall oracle, Rel (start oracle) nothing) /\
    (forall w st o, Rel w st -> legal o st -> exists w' st', step husk o st (exec husk o w) st' w' /\ Rel w' st') /\
    (forall w st, Rel w st -> seen w st /\ balanced w st).
Proof.
  exists R. split; [exact R_start|]. split.
  - intros w st o H L. exact (every_step_works o w st H L).
  - intros w st H. split; [apply R_seen|apply R_balanced]; assumption.
Qed.
End Steps.

(* ---- histories without exceptions ---- *)

Lemma legal_ext {V : Type} (o : op V) (st st' : state V) : (forall k, st k = st' k) -> legal o st -> legal o st'.
Proof.
  intros E. unfold legal, exists_in, full_in, empty_in. destruct o; rewrite <- ?E; auto.
Qed.

Lemma effect_ext {V : Type} husk (o : op V) (st st' : state V) :
  (forall k, st k = st' k) -> forall k, effect husk o st k = effect husk o st' k.
Proof.
  intros E k. destruct o; cbn [effect]; unfold put; rewrite <- ?E; try reflexivity.
  destruct (st j) as [[v|]|]; [destruct (p v)|..]; unfold put; rewrite <- ?E; reflexivity.
Qed.

Lemma effects_ext {V : Type} husk (l : list (op V)) : forall st st' : state V,
  (forall k, st k = st' k) -> forall k, effects husk l st k = effects husk l st' k.
Proof.
  induction l as [|o l IH]; cbn [effects]; [auto|]. intros st st' E. apply IH. apply effect_ext. assumption.
Qed.

Lemma all_legal_ext {V : Type} husk (l : list (op V)) : forall st st' : state V,
  (forall k, st k = st' k) -> all_legal husk l st -> all_legal husk l st'.
Proof.
  induction l as [|o l IH]; cbn [all_legal]; [auto|]. intros st st' E [A B]. split; [apply (legal_ext o st); assumption|].
  apply (IH (effect husk o st)); [|assumption]. apply effect_ext. assumption.
Qed.

Section Quiet.
Context {V : Type}.
Variable husk : V -> V.

Definition quiet {A} (m : M A) : Prop := forall w : world V bool, throws w = [] ->
  match m w with Done _ w' => throws w' = [] | Threw _ => False | Undef => True end.

Lemma quiet_bind {A B} (m : M A) (f : A -> M B) : quiet m -> (forall a, quiet (f a)) -> quiet (bind m f).
Proof.
  intros Hm Hf w T. unfold bind. specialize (Hm w T). destruct (m w) as [a w'|w'|]; try assumption.
  apply Hf. assumption.
Qed.

Lemma quiet_draw {A} (m n : M A) : quiet n -> quiet (bind next_throws (fun b => if b then m else n)).
Proof. intros Hn w T. unfold bind, next_throws. rewrite T. apply Hn. assumption. Qed.

Lemma quiet_on_throw {A} (m : M A) h : quiet m -> quiet (on_throw m h).
Proof.
  intros Hm w T. unfold on_throw. specialize (Hm w T). destruct (m w); auto; contradiction.
Qed.

Lemma quiet_if {A} (b : bool) (m n : M A) : quiet m -> quiet n -> quiet (if b then m else n).
Proof. destruct b; auto. Qed.

Lemma quiet_ret {A} (a : A) : quiet (ret a).
Proof. intros w T. exact T. Qed.

Lemma quiet_fields i : quiet (fields i).
Proof. intros w T. unfold fields. destruct (vars w i); auto. Qed.
Lemma quiet_set_fields i x : quiet (set_fields i x).
Proof. intros w T. exact T. Qed.
Lemma quiet_read i k : quiet (read i k).
Proof. intros w T. unfold read. destruct (cells w i k); auto. Qed.
Lemma quiet_destroy i k : quiet (destroy i k).
Proof. intros w T. unfold destroy. destruct (cells w i k); auto. Qed.
Lemma quiet_hollow i k : quiet (hollow husk i k).
Proof. intros w T. unfold hollow. destruct (cells w i k); auto. Qed.
Lemma quiet_construct i k v : quiet (construct i k v).
Proof. apply quiet_draw. intros w T. exact T. Qed.
Lemma quiet_assign i k v : quiet (assign i k v).
Proof. apply quiet_bind; [apply quiet_read|]. intros a. apply quiet_draw. intros w T. exact T. Qed.
Lemma quiet_move_construct i k j l : quiet (move_construct husk i k j l).
Proof.
  apply quiet_bind; [apply quiet_read|]. intros a. apply quiet_bind; [apply quiet_construct|]. intros _. apply quiet_hollow.
Qed.
Lemma quiet_move_assign i k j l : quiet (LifeModel.move_assign husk i k j l).
Proof.
  apply quiet_bind; [apply quiet_read|]. intros a. apply quiet_bind; [apply quiet_read|]. intros b. apply quiet_draw.
  intros w T. pose proof (quiet_hollow j l w T) as H. destruct (hollow husk j l w); auto.
Qed.
Lemma quiet_swap i k j l : quiet (swap_objects husk i k j l).
Proof.
  apply quiet_bind; [apply quiet_read|]. intros a. apply quiet_draw. apply quiet_bind; [intros w T; exact T|]. intros _.
  apply quiet_bind; [apply quiet_hollow|]. intros _. apply quiet_bind; [|intros _ w T; exact T].
  apply quiet_on_throw. apply quiet_bind; [apply quiet_move_assign|]. intros _. apply quiet_assign.
Qed.
Lemma quiet_vanish i : quiet (vanish i 1).
Proof. intros w T. exact T. Qed.
Lemma quiet_create i m : quiet m -> quiet (create1 i m).
Proof.
  intros Hm w T. unfold create1, create. destruct (vars w i); [exact I|].
  apply (quiet_on_throw m (vanish i 1) Hm). exact T.
Qed.

Ltac q := repeat first [ apply quiet_if | apply quiet_fields | apply quiet_set_fields
  | apply quiet_read | apply quiet_destroy | apply quiet_construct | apply quiet_assign | apply quiet_move_construct
  | apply quiet_move_assign | apply quiet_swap | apply quiet_ret | apply quiet_vanish | apply quiet_hollow
  | apply quiet_bind; intros ].

Lemma quiet_exec o : quiet (exec husk o).
Proof.
  destruct o; cbn [exec]; try apply quiet_create;
  do 4 (unfold copy_constructor_, move_constructor_, swap_, copy_assign_, move_assign_, emplace, emplace_from,
    filter_copy, filter_move, map_, exists_, construct_, move_construct_, destroy_, is_stored; q).
Qed.

Theorem histories l : all_legal husk l nothing ->
  exists w, run husk l (start []) = Some w /\ seen w (effects husk l nothing) /\ balanced w (effects husk l nothing).
Proof.
  enough (G : forall (w : world V bool) (st : state V), R w st -> throws w = [] -> all_legal husk l st ->
    exists w', run husk l w = Some w' /\ R w' (effects husk l st)).
  { intros L. destruct (G _ _ (R_start []) eq_refl L) as [w [A B]]. exists w. split; [assumption|].
    split; [apply R_seen|apply R_balanced]; assumption. }
  induction l as [|o l IH]; intros w st H T L; cbn [run effects] in *.
  - exists w. auto.
  - destruct L as [L L2]. destruct (every_step_works husk o w st H L) as [w' [st' [S H']]].
    pose proof (quiet_exec o w T) as Q. destruct S as [[E X]|[E _]]; rewrite E in Q |- *; [|contradiction].
    destruct (IH w' st' H' Q) as [w2 [A B]].
    { apply (all_legal_ext husk l (effect husk o st)); [intros k; symmetry; apply X|assumption]. }
    exists w2. split; [assumption|].
    assert (Y : forall k, effects husk l st' k = effects husk l (effect husk o st) k).
    { apply effects_ext. assumption. }
    destruct B as [B1 [B2 [B3 [n [B4 B5]]]]]. split; [intros i; rewrite <- Y; apply B1|].
    split; [intros i k; rewrite <- Y; apply B2|]. split; [assumption|]. exists n. split; [|assumption].
    apply (counted_ext _ _ _ B4). intros i. rewrite Y. reflexivity.
Qed.

(* ---- the operations left out ---- *)

Theorem swap_full_empty (w : world V bool) i j v :
  vars w i = Some true -> cells w i 0 = Some v -> vars w j = Some false ->
  exists w', exec husk (Swap i j) w = Done tt w' /\ get i w' = Threw w' /\ get j w' = Threw w'.
Proof.
  intros A B C. assert (D : i <> j) by congruence.
  cbn [exec]. unfold swap_, destroy_, is_stored, bind, fields. rewrite A, C. cbn [andb].
  unfold destroy. rewrite A, B. eexists. split; [reflexivity|].
  unfold get, is_stored, bind, fields, count, set_cell, set_fields, set_var. cbn [vars]. unfold upd.
  rewrite Nat.eqb_refl. rewrite (proj2 (Nat.eqb_neq j i) (not_eq_sym D)). rewrite C. split; reflexivity.
Qed.

Theorem emplace_own_value (w : world V bool) i v :
  vars w i = Some true -> cells w i 0 = Some v -> exec husk (EmplaceFrom i i) w = Undef.
Proof.
  intros A B. cbn [exec]. unfold emplace_from, destroy_, is_stored, bind, fields. rewrite A.
  unfold destroy. rewrite B. unfold set_fields, count, set_cell, set_var, read. cbn [cells vars]. unfold upd.
  rewrite !Nat.eqb_refl. reflexivity.
Qed.
End Quiet.
