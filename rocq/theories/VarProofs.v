(* Proofs about variant. *)
From Coq Require Import List Bool Arith Lia.
From Verif Require Import LifeModel LifeProofs VarModel VarSpec.
Import ListNotations.

Lemma list_find_in l t : In t l -> exists k, list_find l t = Some k /\ nth_error l k = Some t.
Proof.
  induction l as [|x l IH]; [intros []|]. intros H. cbn [list_find]. destruct (Nat.eqb_spec x t) as [->|D].
  - exists 0. split; reflexivity.
  - destruct H as [H|H]; [contradiction|]. destruct (IH H) as [k [A B]]. exists (S k). rewrite A. split; [reflexivity|exact B].
Qed.

Lemma list_find_out l t : ~ In t l -> list_find l t = None.
Proof.
  induction l as [|x l IH]; [reflexivity|]. intros H. cbn [list_find]. destruct (Nat.eqb_spec x t) as [->|D].
  - exfalso. apply H. left. reflexivity.
  - rewrite IH; [reflexivity|]. intros A. apply H. right. assumption.
Qed.

Lemma list_find_nth l t k : list_find l t = Some k -> nth_error l k = Some t.
Proof.
  revert k. induction l as [|x l IH]; [discriminate|]. intros k. cbn [list_find]. destruct (Nat.eqb_spec x t) as [->|D].
  - intros [= <-]. reflexivity.
  - destruct (list_find l t) as [m|]; [|discriminate]. cbn. intros [= <-]. apply IH. reflexivity.
Qed.

Lemma existsb_in t l : existsb (Nat.eqb t) l = true <-> In t l.
Proof.
  rewrite existsb_exists. split; [intros [x [A B]]; apply Nat.eqb_eq in B; subst; assumption|].
  intros A. exists t. split; [assumption|apply Nat.eqb_refl].
Qed.

Definition idx {V : Type} (x : list nat * content V) : vf :=
  MkVf (fst x) (match snd x with
                | Held t _ => list_find (fst x) t
                | Nul => list_find (fst x) 0
                | Spent _ => None
                end).

Ltac var_unfold :=
  cbn [exec]; unfold create1, create, on_throw, copy_construct_, copy_assign_, move_construct_, move_assign_,
    destructor, emplace, VarModel.get, get_or, is_type, empty, cast_copy, cast_move, cast, create_alt, destroy_alt,
    copy_construct_alt, copy_assign_alt, move_construct_alt, move_assign_alt, as_type, set_index, dispatch,
    construct, move_construct, move_assign, assign, LifeModel.on_throw, bind, ret, throw, undef, next_throws, fields,
    set_fields, read, destroy, hollow, vanish, vanish_cells, count, set_cell, set_var.

Ltac var_cbn := cbn [cells vars built ended lost throws option_map andb fst snd lives set_var set_cell count hollow
  vanish_cells object alts index same_index var leaked on_vars remains negb VarModel.husk husk
  effect effect_of_throw after must_throw result is_left same_alternative fits idx].

Ltac var_reduce :=
  repeat (var_cbn;
          first
          [ progress (unfold upd, put; cbv beta)
          | rewrite Nat.eqb_refl
          | match goal with
            | H : ?a <> ?b |- context [?a =? ?b] => rewrite (proj2 (Nat.eqb_neq a b) H)
            | H : ?b <> ?a |- context [?a =? ?b] => rewrite (proj2 (Nat.eqb_neq a b) (not_eq_sym H))
            | Vs : forall i, vars ?w i = _ |- context [vars ?w ?i] => rewrite (Vs i)
            | Cs : forall i k, cells ?w i k = _ |- context [cells ?w ?i ?k] => rewrite (Cs i k)
            | E : var ?st ?i = _ |- context [var ?st ?i] => rewrite E
            | E : list_find ?l ?t = _ |- context [list_find ?l ?t] => rewrite E
            | E : nth_error ?l ?t = _ |- context [nth_error ?l ?t] => rewrite E
            | E : existsb ?l ?t = _ |- context [existsb ?l ?t] => rewrite E
            | E : throws ?w = _ |- context [throws ?w] => rewrite E
            end ]);
  var_cbn.

Ltac var_run := do 4 var_unfold; var_reduce.

Section Proofs.
Context {V : Type}.
Variable husk0 : V -> V.

Local Notation world := (world (nat * V) vf).
Local Notation state := (state V).

Definition has (x : option (list nat * content V)) : bool := match object x with Some _ => true | None => false end.

Definition wf (x : list nat * content V) : Prop :=
  NoDup (fst x) /\ match snd x with Held t _ => In t (fst x) /\ t <> 0 | Nul => In 0 (fst x) | Spent _ => True end.

Definition R (w : world) (st : state) : Prop :=
  (forall i, vars w i = option_map idx (var st i)) /\
  (forall i k, cells w i k = match k with 0 => object (var st i) | S _ => None end) /\
  (lost w = leaked st) /\
  (exists n, counted (fun i => has (var st i)) n /\ built w = ended w + lost w + n) /\
  (forall i x, var st i = Some x -> wf x).

Lemma R_start oracle : R (start oracle) nothing.
Proof.
  split; [reflexivity|]. split; [intros i k; destruct k; reflexivity|]. split; [reflexivity|].
  split; [|intros i x H; discriminate]. exists 0. split; [exact counted_none|reflexivity].
Qed.

Definition works (o : op V) (st : state) (w : world) : Prop :=
  exists threw w', exec husk0 o w = result threw w' /\ R w' (after husk0 o st threw) /\
    (must_throw o st = true -> threw = true) /\
    (throws w = [] -> throws w' = [] /\ threw = must_throw o st).

Lemma works_done o (st : state) w w' :
  exec husk0 o w = Done tt w' -> R w' (effect husk0 o st) -> must_throw o st = false ->
  (throws w = [] -> throws w' = []) -> works o st w.
Proof.
  intros E H M T. exists false, w'. split; [exact E|]. split; [exact H|]. rewrite M. split; [discriminate|auto].
Qed.

Lemma works_threw o (st : state) w w' :
  exec husk0 o w = Threw w' -> R w' (effect_of_throw o st) ->
  (throws w = [] -> throws w' = [] /\ must_throw o st = true) -> works o st w.
Proof.
  intros E H T. exists true, w'. split; [exact E|]. split; [exact H|]. split; [reflexivity|].
  intros A. destruct (T A) as [B C]. auto.
Qed.

Ltac start := intros H L; destruct H as [Vs [Cs [Ls [[n [Cn Bn]] Wf]]]]; cbn [legal] in L.

Ltac funs :=
  let x := fresh "x" in intros x;
  try (let k := fresh "k" in intros k; destruct k as [|k]);
  var_reduce;
  repeat (match goal with
          | |- context [?a =? ?b] => destruct (Nat.eqb_spec a b); [subst|]
          end; var_reduce);
  unfold idx; var_reduce; try reflexivity; try congruence.

Ltac wfs :=
  let x := fresh "x" in let y := fresh "y" in let E := fresh "E" in
  intros x y; var_reduce;
  repeat (match goal with
          | |- context [?a =? ?b] => destruct (Nat.eqb_spec a b); [subst|]
          end; var_reduce);
  intros E; try (match goal with W : forall i x, var _ i = Some x -> wf x |- _ => exact (W _ _ E) end); try discriminate;
  try (injection E as <-; unfold wf; cbn [fst snd]; repeat split; tauto || assumption).

Ltac cfun :=
  let x := fresh "x" in intros x; try (let D := fresh "D" in intros D); unfold has; var_reduce;
  repeat (match goal with
          | |- context [?a =? ?b] => destruct (Nat.eqb_spec a b); [subst|]
          end; var_reduce); try reflexivity; try congruence.
Ltac cpt := unfold has; var_reduce; try reflexivity; try congruence.

Ltac fin := split; [funs|split; [funs|split; [var_reduce; lia|split; [|wfs]]]].
Ltac same := fin; match goal with C : counted _ ?n |- _ =>
  exists n; split; [apply (counted_ext _ _ _ C); cfun|var_reduce; lia] end.
Ltac more i := fin; match goal with C : counted _ ?n |- _ =>
  exists (S n); split; [apply (counted_add _ _ _ i C); [cpt|cpt|cfun]|var_reduce; lia] end.
Ltac fewer i := fin; match goal with C : counted _ ?n |- exists n0, counted ?Q n0 /\ _ =>
  let m := fresh "m" in let C2 := fresh "C" in
  destruct (counted_del _ Q _ i C) as [m [-> C2]]; [cpt|cpt|cfun|exists m; split; [exact C2|var_reduce; lia]] end.
Ltac quiet := let T := fresh "T" in intros T; first [exact T|discriminate T|congruence|var_reduce; reflexivity].
Ltac done := eapply works_done; [var_run; reflexivity| |var_reduce; try reflexivity|quiet].
Ltac threw := eapply works_threw; [var_run; reflexivity|
  |let T := fresh "T" in intros T; first [exfalso; congruence|split; [exact T|var_reduce; reflexivity]]].

Lemma w_NewVoid i l (w : world) (st : state) : R w st -> legal (NewVoid i l) st -> works (NewVoid i l) st w.
Proof.
  start. destruct L as [A [N Z]]. destruct (list_find_in l 0 Z) as [k [K Nk]]. done. same.
Qed.

Lemma w_NewValue i l t v (w : world) (st : state) :
  R w st -> legal (NewValue i l t v) st -> works (NewValue i l t v) st w.
Proof.
  start. destruct L as [A [N [Z T0]]]. destruct (list_find_in l t Z) as [k [K Nk]].
  destruct (throws w) as [|[] tl] eqn:T.
  - done. more i.
  - threw. same.
  - done. more i.
Qed.

Lemma usable_cases (st : state) i l (w : world) : (forall i x, var st i = Some x -> wf x) -> usable st i l ->
  (exists t v k, var st i = Some (l, Held t v) /\ In t l /\ t <> 0 /\ list_find l t = Some k /\ nth_error l k = Some t /\ NoDup l) \/
  (exists k, var st i = Some (l, Nul) /\ In 0 l /\ list_find l 0 = Some k /\ nth_error l k = Some 0 /\ NoDup l).
Proof.
  intros Wf [[t [v E]]|E]; pose proof (Wf _ _ E) as [N W]; cbn [fst snd] in *.
  - destruct W as [W1 W2]. left. destruct (list_find_in l t W1) as [k [A B]]. exists t, v, k. repeat split; assumption.
  - right. destruct (list_find_in l 0 W) as [k [A B]]. exists k. repeat split; assumption.
Qed.

Lemma w_NewCopy i j (w : world) (st : state) : R w st -> legal (NewCopy i j) st -> works (NewCopy i j) st w.
Proof.
  start. destruct L as [A [l U]]. assert (D : j <> i).
  { intros ->. destruct U as [[t [v E]]|E]; congruence. }
  destruct (usable_cases st j l w Wf U) as [[t [v [k [E [I [T0 [K [Nk N]]]]]]]]|[k [E [I [K [Nk N]]]]]].
  - destruct (throws w) as [|[] tl] eqn:T.
    + done. more i.
    + threw. same.
    + done. more i.
  - done. same.
Qed.

Lemma w_NewMove i j (w : world) (st : state) : R w st -> legal (NewMove i j) st -> works (NewMove i j) st w.
Proof.
  start. destruct L as [A [l U]]. assert (D : j <> i).
  { intros ->. destruct U as [[t [v E]]|E]; congruence. }
  destruct (usable_cases st j l w Wf U) as [[t [v [k [E [I [T0 [K [Nk N]]]]]]]]|[k [E [I [K [Nk N]]]]]].
  - destruct (throws w) as [|[] tl] eqn:T.
    + done. more i.
    + threw. same.
    + done. more i.
  - done. same.
Qed.

Lemma not_existsb t l : ~ In t l -> existsb (Nat.eqb t) l = false.
Proof. intros H. destruct (existsb (Nat.eqb t) l) eqn:E; [|reflexivity]. apply existsb_in in E. contradiction. Qed.

Lemma w_NewCast i l j (w : world) (st : state) : R w st -> legal (NewCast i l j) st -> works (NewCast i l j) st w.
Proof.
  start. destruct L as [A [N [[l' c] E]]]. assert (D : j <> i) by congruence.
  pose proof (Wf _ _ E) as [N' W]. cbn [fst snd] in *. destruct c as [t v| |x].
  - destruct W as [I T0]. destruct (list_find_in l' t I) as [k [K Nk]].
    destruct (in_dec Nat.eq_dec t l) as [F|F].
    + destruct (list_find_in l t F) as [m [M Nm]]. pose proof (proj2 (existsb_in t l) F) as X.
      destruct (throws w) as [|[] tl] eqn:T.
      * done. more i.
      * threw. same.
      * done. more i.
    + pose proof (list_find_out l t F) as M. pose proof (not_existsb t l F) as X. threw. same.
  - destruct (list_find_in l' 0 W) as [k [K Nk]]. destruct (in_dec Nat.eq_dec 0 l) as [F|F].
    + destruct (list_find_in l 0 F) as [m [M Nm]]. pose proof (proj2 (existsb_in 0 l) F) as X. done. same.
    + pose proof (list_find_out l 0 F) as M. pose proof (not_existsb 0 l F) as X. threw. same.
  - threw. same.
Qed.

Lemma w_NewCastMove i l j (w : world) (st : state) :
  R w st -> legal (NewCastMove i l j) st -> works (NewCastMove i l j) st w.
Proof.
  start. destruct L as [A [N [[l' c] E]]]. assert (D : j <> i) by congruence.
  pose proof (Wf _ _ E) as [N' W]. cbn [fst snd] in *. destruct c as [t v| |x].
  - destruct W as [I T0]. destruct (list_find_in l' t I) as [k [K Nk]].
    destruct (in_dec Nat.eq_dec t l) as [F|F].
    + destruct (list_find_in l t F) as [m [M Nm]]. pose proof (proj2 (existsb_in t l) F) as X.
      destruct (throws w) as [|[] tl] eqn:T.
      * done. more i.
      * threw. same.
      * done. more i.
    + pose proof (list_find_out l t F) as M. pose proof (not_existsb t l F) as X. threw. same.
  - destruct (list_find_in l' 0 W) as [k [K Nk]]. destruct (in_dec Nat.eq_dec 0 l) as [F|F].
    + destruct (list_find_in l 0 F) as [m [M Nm]]. pose proof (proj2 (existsb_in 0 l) F) as X. done. same.
    + pose proof (list_find_out l 0 F) as M. pose proof (not_existsb 0 l F) as X. threw. same.
  - threw. same.
Qed.

Lemma w_Delete i (w : world) (st : state) : R w st -> legal (Delete i) st -> works (Delete i) st w.
Proof.
  start. destruct L as [[l c] E]. pose proof (Wf _ _ E) as [N W]. cbn [fst snd] in *. destruct c as [t v| |[x|]].
  - destruct W as [I T0]. destruct (list_find_in l t I) as [k [K Nk]]. done. fewer i.
  - destruct (list_find_in l 0 W) as [k [K Nk]]. done. same.
  - done. fewer i.
  - done. same.
Qed.

Lemma w_Emplace i t v (w : world) (st : state) : R w st -> legal (Emplace i t v) st -> works (Emplace i t v) st w.
Proof.
  start. destruct L as [l [U [F T1]]]. destruct (list_find_in l t F) as [m [M Nm]].
  destruct (usable_cases st i l w Wf U) as [[u [x [k [E [I [T0 [K [Nk N]]]]]]]]|[k [E [I [K [Nk N]]]]]];
    destruct (throws w) as [|[] tl] eqn:T.
  - done. same.
  - threw. fewer i.
  - done. same.
  - done. more i.
  - threw. same.
  - done. more i.
Qed.

Lemma find_diff l t u k m : list_find l t = Some k -> list_find l u = Some m -> t <> u -> k <> m.
Proof.
  intros A B D E. subst m. apply list_find_nth in A, B. congruence.
Qed.

Lemma w_CopyAssign i j (w : world) (st : state) : R w st -> legal (CopyAssign i j) st -> works (CopyAssign i j) st w.
Proof.
  start. destruct L as [l [U1 U2]].
  destruct (usable_cases st i l w Wf U1) as [[t [v [k [E [I [T0 [K [Nk N]]]]]]]]|[k [E [I [K [Nk N]]]]]].
  - destruct (Nat.eq_dec i j) as [<-|D].
    { destruct (throws w) as [|[] tl] eqn:T; [done; same|threw; same|done; same]. }
    destruct (usable_cases st j l w Wf U2) as [[u [x [m [E' [I' [T0' [K' [Nk' _]]]]]]]]|[m [E' [I' [K' [Nk' _]]]]]].
    + destruct (Nat.eq_dec t u) as [<-|TU].
      * replace m with k in * by congruence. destruct (throws w) as [|[] tl] eqn:T; [done; same|threw; same|done; same].
      * pose proof (find_diff _ _ _ _ _ K K' TU) as KM.
        destruct (throws w) as [|[] tl] eqn:T; [done; same|threw; fewer i|done; same].
    + pose proof (find_diff _ _ _ _ _ K K' T0) as KM. done. fewer i.
  - destruct (Nat.eq_dec i j) as [<-|D]; [done; same|].
    destruct (usable_cases st j l w Wf U2) as [[u [x [m [E' [I' [T0' [K' [Nk' _]]]]]]]]|[m [E' [I' [K' [Nk' _]]]]]].
    + pose proof (find_diff _ _ _ _ _ K' K T0') as KM.
      destruct (throws w) as [|[] tl] eqn:T; [done; more i|threw; same|done; more i].
    + replace m with k in * by congruence. done. same.
Qed.

Lemma w_MoveAssign i j (w : world) (st : state) : R w st -> legal (MoveAssign i j) st -> works (MoveAssign i j) st w.
Proof.
  start. destruct L as [l [U1 U2]].
  destruct (usable_cases st i l w Wf U1) as [[t [v [k [E [I [T0 [K [Nk N]]]]]]]]|[k [E [I [K [Nk N]]]]]].
  - destruct (Nat.eq_dec i j) as [<-|D].
    { destruct (throws w) as [|[] tl] eqn:T; [done; same|threw; same|done; same]. }
    destruct (usable_cases st j l w Wf U2) as [[u [x [m [E' [I' [T0' [K' [Nk' _]]]]]]]]|[m [E' [I' [K' [Nk' _]]]]]].
    + destruct (Nat.eq_dec t u) as [<-|TU].
      * replace m with k in * by congruence. destruct (throws w) as [|[] tl] eqn:T; [done; same|threw; same|done; same].
      * pose proof (find_diff _ _ _ _ _ K K' TU) as KM.
        destruct (throws w) as [|[] tl] eqn:T; [done; same|threw; fewer i|done; same].
    + pose proof (find_diff _ _ _ _ _ K K' T0) as KM. done. fewer i.
  - destruct (Nat.eq_dec i j) as [<-|D]; [done; same|].
    destruct (usable_cases st j l w Wf U2) as [[u [x [m [E' [I' [T0' [K' [Nk' _]]]]]]]]|[m [E' [I' [K' [Nk' _]]]]]].
    + pose proof (find_diff _ _ _ _ _ K' K T0') as KM.
      destruct (throws w) as [|[] tl] eqn:T; [done; more i|threw; same|done; more i].
    + replace m with k in * by congruence. done. same.
Qed.

Theorem every_step_works o (w : world) (st : state) : R w st -> legal o st -> works o st w.
Proof.
  destruct o; [apply w_NewVoid|apply w_NewValue|apply w_NewCopy|apply w_NewMove|apply w_NewCast|
    apply w_NewCastMove|apply w_Delete|apply w_Emplace|apply w_CopyAssign|apply w_MoveAssign].
Qed.

Lemma same_index_neq k m : k <> m -> same_index (Some k) (Some m) = false.
Proof. intros H. cbn. apply Nat.eqb_neq. assumption. Qed.

Lemma R_seen (w : world) (st : state) : R w st -> seen w st.
Proof.
  intros [Vs [Cs [_ [_ Wf]]]]. split; [|split].
  - intros i l t v E. pose proof (Wf _ _ E) as [N [I T0]]. cbn [fst snd] in *. destruct (list_find_in l t I) as [k [K Nk]].
    assert (IS : forall u, is_type i u w = Done (u =? t) w).
    { intros u. var_run. destruct (in_dec Nat.eq_dec u l) as [F|F].
      - destruct (list_find_in l u F) as [m [M Nm]]. rewrite M. var_cbn. f_equal.
        destruct (Nat.eqb_spec u t) as [->|D]; [rewrite K in M; injection M as ->; apply Nat.eqb_refl|].
        apply Nat.eqb_neq. apply (find_diff l t u); auto.
      - rewrite (list_find_out l u F). f_equal. symmetry. apply Nat.eqb_neq. intros ->. contradiction. }
    split; [var_run; reflexivity|]. split; [intros d; var_run; reflexivity|]. split; [|split].
    + unfold empty. rewrite IS. f_equal. apply Nat.eqb_neq. auto.
    + exact IS.
    + intros u F D. destruct (list_find_in l u F) as [m [M Nm]].
      pose proof (find_diff l t u k m K M (not_eq_sym D)) as KM.
      split; [var_run; reflexivity|intros d; var_run; reflexivity].
  - intros i l E. pose proof (Wf _ _ E) as [N I]. cbn [fst snd] in *. destruct (list_find_in l 0 I) as [k [K Nk]].
    assert (IS : forall u, is_type i u w = Done (u =? 0) w).
    { intros u. var_run. destruct (in_dec Nat.eq_dec u l) as [F|F].
      - destruct (list_find_in l u F) as [m [M Nm]]. rewrite M. var_cbn. f_equal.
        destruct (Nat.eqb_spec u 0) as [->|D]; [rewrite K in M; injection M as ->; apply Nat.eqb_refl|].
        apply Nat.eqb_neq. apply (find_diff l 0 u); auto.
      - rewrite (list_find_out l u F). f_equal. symmetry. apply Nat.eqb_neq. intros ->. contradiction. }
    split; [unfold empty; apply IS|]. split; [exact IS|].
    intros u [F D]. destruct (list_find_in l u F) as [m [M Nm]].
    pose proof (find_diff l 0 u k m K M (not_eq_sym D)) as KM.
    split; [var_run; reflexivity|intros d; var_run; reflexivity].
  - intros i l x E.
    assert (IS : forall u, is_type i u w = Done false w).
    { intros u. var_run. destruct (list_find l u); reflexivity. }
    split; [unfold empty; apply IS|]. split; [exact IS|].
    intros u F. destruct (list_find_in l u F) as [m [M Nm]].
    split; [var_run; reflexivity|intros d; var_run; reflexivity].
Qed.

Lemma R_balanced (w : world) (st : state) : R w st -> balanced w st.
Proof.
  intros [Vs [Cs [Ls [[n [Cn Bn]] _]]]]. split; [assumption|]. split; [assumption|].
  intros l N I. rewrite Bn. f_equal. symmetry. apply (counted_length _ _ _ Cn N).
  intros i. rewrite I. unfold has. destruct (object (var st i)); split; intros; congruence.
Qed.

Theorem simulation :
  exists Rel : world -> state -> Prop,
    (forall oracle, Rel (start oracle) nothing) /\
    (forall w st o, Rel w st -> legal o st ->
       exists threw w', exec husk0 o w = result threw w' /\ Rel w' (after husk0 o st threw) /\
         (must_throw o st = true -> threw = true)) /\
    (forall w st, Rel w st -> seen w st /\ balanced w st).
Proof.
  exists R. split; [exact R_start|]. split.
  - intros w st o H L. destruct (every_step_works o w st H L) as [b [w' [A [B [C _]]]]]. exists b, w'. auto.
  - intros w st H. split; [apply R_seen|apply R_balanced]; assumption.
Qed.

Theorem histories l : all_legal husk0 l nothing ->
  exists w, run husk0 l (start []) = Some w /\ seen w (effects husk0 l nothing) /\ balanced w (effects husk0 l nothing).
Proof.
  enough (G : forall (w : world) (st : state), R w st -> throws w = [] -> all_legal husk0 l st ->
    exists w', run husk0 l w = Some w' /\ R w' (effects husk0 l st)).
  { intros L. destruct (G _ _ (R_start []) eq_refl L) as [w [A B]]. exists w. split; [assumption|].
    split; [apply R_seen|apply R_balanced]; assumption. }
  induction l as [|o l IH]; intros w st H T L; cbn [run effects all_legal] in *.
  - exists w. auto.
  - destruct L as [L L2]. destruct (every_step_works o w st H L) as [b [w' [A [B [_ C]]]]].
    destruct (C T) as [Q ->]. destruct (IH _ _ B Q L2) as [w2 [D E]]. exists w2. split; [|assumption].
    rewrite A. destruct (must_throw o st); exact D.
Qed.

(* ---- without moves nothing is left behind ---- *)

Definition clean (st : state) : Prop := leaked st = 0 /\ forall i, is_left (var st i) = 0.

Lemma clean_put f i x : (forall k, is_left (f k) = 0) -> is_left x = 0 -> forall k, is_left (@put V f i x k) = 0.
Proof. intros H X k. unfold put. destruct (k =? i); auto. Qed.

Lemma clean_after o (st : state) b : moves o = false -> clean st -> clean (after husk0 o st b).
Proof.
  intros M [A B]. unfold clean, after. destruct b, o; cbn [moves effect effect_of_throw on_vars leaked var] in *; try discriminate;
    repeat match goal with |- context [match var st ?i with _ => _ end] => destruct (var st i) as [[? []]|] eqn:? end;
    cbn [same_alternative remains]; repeat match goal with |- context [if ?c then _ else _] => destruct c end;
    cbn [on_vars leaked var]; rewrite ?A, ?B; (split; [lia|]); try assumption; apply clean_put; auto; try reflexivity;
    repeat apply clean_put; auto; try reflexivity.
  - specialize (B j). rewrite Heqo in B. exact B.
  - specialize (B j). rewrite Heqo in B. exact B.
Qed.

Theorem no_moves_no_leak l : all_legal husk0 l nothing -> forallb (fun o => negb (moves o)) l = true ->
  exists w, run husk0 l (start []) = Some w /\ lost w = 0 /\
    (forall i k x, cells w i k = Some x ->
       exists a t v, x = (t, v) /\ var (effects husk0 l nothing) i = Some (a, Held t v)).
Proof.
  intros L M. destruct (histories l L) as [w [A [_ [B [C _]]]]]. exists w. split; [assumption|].
  assert (K : forall (st : state), clean st -> clean (effects husk0 l st)).
  { clear L A B C. revert M. induction l as [|o l' IH]; cbn [forallb effects]; [auto|]. intros M st H.
    apply andb_true_iff in M. destruct M as [M1 M2]. apply IH; [assumption|]. apply clean_after; [|assumption].
    destruct (moves o); [discriminate|reflexivity]. }
  destruct (K nothing) as [K1 K2]; [split; reflexivity|]. split; [rewrite B; exact K1|].
  intros i k x E. rewrite C in E. specialize (K2 i). destruct k; [|discriminate].
  destruct (var (effects husk0 l nothing) i) as [[a [t v| |[y|]]]|]; try discriminate.
  injection E as <-. exists a, t, v. auto.
Qed.

(* ---- variants that were moved from ---- *)

Theorem spent_is_unusable (w : world) i l : vars w i = Some (MkVf l None) ->
  (forall k, vars w k = None -> k <> i -> exec husk0 (NewCopy k i) w = Undef /\ exec husk0 (NewMove k i) w = Undef) /\
  (forall t v, exec husk0 (Emplace i t v) w = Undef) /\
  (forall j, vars w j <> None -> exec husk0 (CopyAssign i j) w = Undef /\ exec husk0 (MoveAssign i j) w = Undef).
Proof.
  intros E. split; [|split].
  - intros k A D. pose proof (proj2 (Nat.eqb_neq i k) (not_eq_sym D)) as Q.
    split; cbn [exec]; unfold copy_construct_, move_construct_, create1, create, on_throw, dispatch, bind, fields;
      repeat (var_cbn; first [progress (unfold upd; cbv beta)|rewrite Q|rewrite E|rewrite A]); reflexivity.
  - intros t v. cbn [exec]. unfold emplace, bind, fields. rewrite E. unfold dispatch, bind, fields. rewrite E. reflexivity.
  - intros j H. destruct (vars w j) as [[l' k]|] eqn:J; [|contradiction].
    split; cbn [exec]; unfold copy_assign_, move_assign_, bind, fields; rewrite E, J; cbn [index];
      destruct (same_index None k); unfold dispatch, bind, fields; rewrite E; reflexivity.
Qed.
End Proofs.
