(* Proofs about storage. *)
From Coq Require Import List Bool Arith Lia.
From Verif Require Import LifeModel LifeProofs AnyModel StoreModel StoreSpec.
From Verif Require AnySpec AnyProofs.
Import ListNotations.

Section Stack.
Context {V : Type}.
Notation world := (world V unit).
Notation state := (state V).

Definition fullb (x : option (option V)) : bool := match x with Some (Some _) => true | _ => false end.
Definition held (x : option (option V)) : option V := match x with Some c => c | None => None end.
Definition flag (x : option (option V)) : option unit := match x with Some _ => Some tt | None => None end.

(* e objects more than those held *)
Definition S (e : nat) (w : world) (st : state) : Prop :=
  (forall i, vars w i = flag (st i)) /\
  (forall i k, cells w i k = match k with 0 => held (st i) | Datatypes.S _ => None end) /\
  lost w = 0 /\
  exists n, counted (fun i => fullb (st i)) n /\ built w = ended w + n + e.

Lemma S_start oracle : S 0 (start oracle) nothing.
Proof. split; [reflexivity|]. split; [intros i []; reflexivity|]. split; [reflexivity|]. exists 0. split; [apply counted_none|reflexivity]. Qed.

Lemma S_ext e w (st st' : state) : S e w st -> (forall k, st k = st' k) -> S e w st'.
Proof.
  intros [A [B [C [n [D E]]]]] H. split; [intros i; rewrite <- H; apply A|]. split; [intros i k; rewrite <- H; apply B|].
  split; [assumption|]. exists n. split; [|assumption]. apply (counted_ext _ _ _ D). intros i. rewrite H. reflexivity.
Qed.

Lemma put_same (st : state) i x : put st i x i = x.
Proof. unfold put. rewrite Nat.eqb_refl. reflexivity. Qed.
Lemma put_other (st : state) i x k : k <> i -> put st i x k = st k.
Proof. intros H. unfold put. apply Nat.eqb_neq in H. rewrite H. reflexivity. Qed.

(* the world after a change to variable i *)
Lemma S_change e e' w (st : state) i x (b d : nat) l ve :
  S e w st -> ve i = flag x -> (forall k, k <> i -> ve k = vars w k) ->
  b + e + (if fullb (st i) then 1 else 0) = d + e' + (if fullb x then 1 else 0) ->
  forall ce, (forall j k, ce j k = if j =? i then match k with 0 => held x | _ => None end else cells w j k) ->
  S e' (MkWorld ce ve (built w + b) (ended w + d) 0 l) (put st i x).
Proof.
  intros [A [B [C [n [D E]]]]] X Y Z ce F. split; [|split; [|split]]; cbn.
  - intros k. unfold put. destruct (Nat.eqb_spec k i) as [->|]; [assumption|]. rewrite Y by assumption. apply A.
  - intros j k. rewrite F. unfold put. destruct (j =? i); [reflexivity|apply B].
  - reflexivity.
  - destruct (fullb (st i)) eqn:P, (fullb x) eqn:Q.
    + exists n. split; [|lia]. apply (counted_ext _ _ _ D). intros k. unfold put. destruct (Nat.eqb_spec k i) as [->|]; congruence.
    + destruct (counted_del _ (fun k => fullb (put st i x k)) n i D P) as [m [M1 M2]].
      * rewrite put_same. assumption.
      * intros k K. rewrite put_other by assumption. reflexivity.
      * exists m. split; [assumption|lia].
    + exists (Datatypes.S n). split; [|lia]. apply (counted_add _ _ n i D P).
      * rewrite put_same. assumption.
      * intros k K. rewrite put_other by assumption. reflexivity.
    + exists n. split; [|lia]. apply (counted_ext _ _ _ D). intros k. unfold put. destruct (Nat.eqb_spec k i) as [->|]; congruence.
Qed.

Lemma S_throws e w (st : state) l : S e w st -> S e (MkWorld (cells w) (vars w) (built w) (ended w) (lost w) l) st.
Proof. intros H. exact H. Qed.

Lemma S_fields e w (st : state) i : S e w st -> st i <> None -> fields i w = Done tt w.
Proof. intros [A _] H. unfold fields. rewrite A. destruct (st i); [reflexivity|contradiction]. Qed.

Lemma S_read e w (st : state) i v : S e w st -> st i = Some (Some v) -> read i 0 w = Done v w.
Proof. intros [_ [B _]] H. unfold read. rewrite B, H. reflexivity. Qed.

Lemma S_destroy e w (st : state) i v : S e w st -> st i = Some (Some v) ->
  exists w', destroy i 0 w = Done tt w' /\ S e w' (put st i (Some None)) /\ throws w' = throws w.
Proof.
  intros H I. pose proof H as [A [B [C D]]]. unfold destroy. rewrite B, I. cbn [held]. eexists. split; [reflexivity|]. split; [|reflexivity].
  unfold count, set_cell. cbn. rewrite C. apply (S_change e e w st i (Some None)); [assumption| |reflexivity| |].
  - rewrite A, I. reflexivity.
  - rewrite I. cbn. lia.
  - intros j k. unfold upd. destruct (j =? i); [|reflexivity]. destruct k; cbn; [reflexivity|]. rewrite B. reflexivity.
Qed.

Lemma S_construct e w (st : state) i v : S e w st -> st i = Some None ->
  (exists w', construct i 0 v w = Done tt w' /\ S e w' (put st i (Some (Some v)))) \/
  (exists w', construct i 0 v w = Threw w' /\ S e w' st /\ throws w <> []).
Proof.
  intros H I. pose proof H as [A [B [C D]]]. unfold construct, bind, next_throws.
  assert (G : forall l, S e (count 1 0 (lives (cells w i 0)) (set_cell i 0 (Some v) (MkWorld (cells w) (vars w) (built w) (ended w) (lost w) l))) (put st i (Some (Some v)))).
  { intros l. unfold count, set_cell. cbn. rewrite C, B, I. cbn. apply (S_change e e w st i (Some (Some v))); [assumption| |reflexivity| |].
    - rewrite A, I. reflexivity.
    - rewrite I. cbn. lia.
    - intros j k. unfold upd. destruct (j =? i); [|reflexivity]. destruct k; cbn; [reflexivity|]. rewrite B. reflexivity. }
  destruct (throws w) as [|[] l] eqn:T.
  - left. eexists. split; [reflexivity|]. specialize (G []). rewrite <- T in G. destruct w. exact G.
  - right. eexists. split; [reflexivity|]. split; [exact H|discriminate].
  - left. eexists. split; [reflexivity|]. exact (G l).
Qed.

Lemma S_create e w (st : state) i : S e w st -> st i = None -> vars w i = None /\ S e (set_var i (Some tt) w) (put st i (Some None)).
Proof.
  intros H I. pose proof H as [A [B [C D]]]. split; [rewrite A, I; reflexivity|].
  unfold set_var. rewrite C. rewrite <- (Nat.add_0_r (built w)), <- (Nat.add_0_r (ended w)).
  apply (S_change e e w st i (Some None)); [assumption| | | |].
  - unfold upd. rewrite Nat.eqb_refl. reflexivity.
  - intros k K. unfold upd. apply Nat.eqb_neq in K. rewrite K. reflexivity.
  - rewrite I. reflexivity.
  - intros j k. destruct (Nat.eqb_spec j i) as [->|]; [|reflexivity]. rewrite B, I. destruct k; reflexivity.
Qed.

Lemma S_vanish e w (st : state) i : S e w st -> st i = Some None ->
  exists w', vanish i 1 w = Done tt w' /\ S e w' (put st i None).
Proof.
  intros H I. pose proof H as [A [B [C D]]]. eexists. split; [reflexivity|]. unfold set_var. cbn.
  rewrite C, B, I. cbn. 
  apply (S_change e e w st i None); [assumption| | | |].
  - unfold upd. rewrite Nat.eqb_refl. reflexivity.
  - intros k K. unfold upd. apply Nat.eqb_neq in K. rewrite K. reflexivity.
  - rewrite I. reflexivity.
  - intros j k. unfold upd. destruct (Nat.eqb_spec j i) as [->|]; [|reflexivity]. destruct k; cbn; [reflexivity|]. rewrite B. reflexivity.
Qed.

Definition stack_works (o : op V) (st : state) (w : world) : Prop :=
  exists w' st', stack_step o st w w' st' /\ S 0 w' st'.

Lemma done o (st st' : state) w w' : stack_exec o w = Done tt w' -> S 0 w' st' -> (forall k, st' k = stack_effect o st k) -> stack_works o st w.
Proof. intros A B C. exists w', st'. split; [left; auto|assumption]. Qed.
Lemma failed o (st st' : state) w w' : stack_exec o w = Threw w' -> S 0 w' st' -> throws w <> [] -> stack_failure o st st' -> stack_works o st w.
Proof. intros A B C D. exists w', st'. split; [right; auto|assumption]. Qed.

Lemma fold_put (st : state) i x y k : put (put st i x) i y k = put st i y k.
Proof. unfold put. destruct (k =? i); reflexivity. Qed.

Lemma create_build o (st : state) w i v : S 0 w st -> st i = None ->
  stack_exec o w = create i 1 tt (construct i 0 v) w ->
  (forall k, put st i (Some (Some v)) k = stack_effect o st k) ->
  stack_failure o st st -> stack_works o st w.
Proof.
  intros H I E F G. destruct (S_create 0 w st i H I) as [A B]. unfold create in E. rewrite A in E. unfold on_throw in E.
  destruct (S_construct 0 _ _ i v B (put_same _ _ _)) as [[w' [C1 C2]]|[w' [C1 [C2 C3]]]]; rewrite C1 in E.
  - eapply done; [exact E|exact C2|]. intros k. rewrite fold_put. apply F.
  - destruct (S_vanish 0 w' _ i C2 (put_same _ _ _)) as [w2 [D1 D2]]. rewrite D1 in E.
    eapply failed; [exact E| |exact C3|exact G]. apply (S_ext _ _ _ _ D2). intros k. rewrite fold_put. unfold put.
    destruct (Nat.eqb_spec k i) as [->|]; congruence.
Qed.

Lemma w_copy o i j w (st : state) : S 0 w st -> st i = None -> full_in st j -> o = NewCopy i j \/ o = NewMove i j -> stack_works o st w.
Proof.
  intros H I [v J] O. apply (create_build o st w i v H I).
  - assert (R : read j 0 (set_var i (Some tt) w) = Done v (set_var i (Some tt) w)).
    { pose proof (S_read 0 w st j v H J) as R. unfold read in *. cbn. destruct (cells w j 0); congruence. }
    destruct O as [-> | ->]; cbn [stack_exec]; unfold create; destruct (vars w i); try reflexivity; unfold on_throw, bind at 1; rewrite R; reflexivity.
  - intros k. destruct O as [-> | ->]; cbn [stack_effect]; rewrite J; reflexivity.
  - destruct O as [-> | ->]; intros k; reflexivity.
Qed.

Lemma w_assign o i j w (st : state) : S 0 w st -> full_in st i -> full_in st j -> o = Assign i j \/ o = AssignMove i j -> stack_works o st w.
Proof.
  intros H [u I] [v J] O.
  assert (E : stack_exec o w = if i =? j then Done tt w else bind (destroy i 0) (fun _ => bind (read j 0) (fun v => construct i 0 v)) w).
  { assert (E : stack_exec o w = stack_assign i j w) by (destruct O as [-> | ->]; reflexivity). rewrite E. unfold stack_assign.
    unfold bind at 1. rewrite (S_fields 0 w st i H) by congruence. unfold bind at 1. rewrite (S_fields 0 w st j H) by congruence.
    destruct (i =? j); reflexivity. }
  destruct (Nat.eqb_spec i j) as [->|N].
  - apply (done o st st w w E H). intros k. assert (Q : stack_effect o st k = put st j (st j) k) by (destruct O as [-> | ->]; reflexivity).
    rewrite Q. unfold put. destruct (Nat.eqb_spec k j) as [->|]; reflexivity.
  - destruct (S_destroy 0 w st i u H I) as [w1 [D1 [D2 D3]]]. unfold bind at 1 in E. rewrite D1 in E.
    unfold bind at 1 in E. rewrite (S_read 0 w1 _ j v D2) in E by (rewrite put_other by congruence; exact J).
    destruct (S_construct 0 w1 _ i v D2 (put_same _ _ _)) as [[w' [C1 C2]]|[w' [C1 [C2 C3]]]]; rewrite C1 in E.
    + eapply done; [exact E|exact C2|]. intros k. rewrite fold_put.
      assert (Q : stack_effect o st k = put st i (st j) k) by (destruct O as [-> | ->]; reflexivity). rewrite Q, J. reflexivity.
    + eapply failed; [exact E|exact C2|congruence|]. destruct O as [-> | ->]; split; auto.
Qed.

Lemma S_tally e w (st : state) : S e w st -> exists w', tally 1 0 w = Done tt w' /\ S (Datatypes.S e) w' st /\ throws w' = throws w.
Proof.
  intros [A [B [C [n [D E]]]]]. eexists. split; [reflexivity|]. split; [|reflexivity].
  split; [assumption|]. split; [assumption|]. cbn. split; [lia|]. exists n. split; [assumption|]. lia.
Qed.
Lemma S_untally e w (st : state) : S (Datatypes.S e) w st -> exists w', tally 0 1 w = Done tt w' /\ S e w' st /\ throws w' = throws w.
Proof.
  intros [A [B [C [n [D E]]]]]. eexists. split; [reflexivity|]. split; [|reflexivity].
  split; [assumption|]. split; [assumption|]. cbn. split; [lia|]. exists n. split; [assumption|]. lia.
Qed.

Lemma construct_throws i k v (w w' : world) : construct i k v w = Done tt w' -> throws w' = tl (throws w).
Proof.
  unfold construct, bind, next_throws. destruct (throws w) as [|[] l] eqn:T; intros H; try discriminate; injection H as <-; cbn; [rewrite T|]; reflexivity.
Qed.

Lemma w_swap i j w (st : state) : S 0 w st -> full_in st i -> full_in st j -> stack_works (Swap i j) st w.
Proof.
  intros H [u I] [v J]. cut (stack_exec (Swap i j) w = stack_swap i j w); [intros E|reflexivity].
  unfold stack_swap in E. unfold bind at 1 in E. rewrite (S_fields 0 w st i H) in E by congruence.
  unfold bind at 1 in E. rewrite (S_fields 0 w st j H) in E by congruence.
  destruct (Nat.eqb_spec i j) as [->|N].
  - apply (done _ st st w w E H). intros k. cbn [stack_effect]. unfold put. destruct (Nat.eqb_spec k j) as [->|]; reflexivity.
  - unfold bind at 1 in E. rewrite (S_read 0 w st i u H I) in E. unfold bind at 1 in E. unfold next_throws in E.
    destruct (throws w) as [|b l0] eqn:T.
    2: destruct b.
    2: { eapply failed; [exact E|exact H|congruence|]. split; [assumption|]. left. reflexivity. }
    + (* no throws left *)
      destruct (S_tally 0 w st H) as [w1 [T1 [T2 T3]]]. unfold bind at 1 in E. rewrite T1 in E.
      destruct (S_destroy 1 w1 st i u T2 I) as [w2 [D1 [D2 D3]]].
      unfold bind at 1, on_throw in E. unfold bind at 1 in E. rewrite D1 in E. unfold bind at 1 in E.
      rewrite (S_read 1 w2 _ j v D2) in E by (rewrite put_other by congruence; exact J).
      destruct (S_construct 1 w2 _ i v D2 (put_same _ _ _)) as [[w3 [C1 C2]]|[w3 [C1 [C2 C3]]]]; [|congruence].
      unfold bind at 1 in E. rewrite C1 in E.
      assert (J3 : put (put st i (Some None)) i (Some (Some v)) j = Some (Some v)) by (rewrite fold_put, put_other by congruence; exact J).
      destruct (S_destroy 1 w3 _ j v C2 J3) as [w4 [F1 [F2 F3]]]. unfold bind at 1 in E. rewrite F1 in E.
      destruct (S_construct 1 w4 _ j u F2 (put_same _ _ _)) as [[w5 [G1 G2]]|[w5 [G1 [G2 G3]]]].
      2: { exfalso. apply G3. rewrite F3, (construct_throws _ _ _ _ _ C1), D3, T3, T. reflexivity. }
      rewrite G1 in E. destruct (S_untally 0 w5 _ G2) as [w6 [U1 [U2 U3]]]. rewrite U1 in E.
      eapply done; [exact E|exact U2|]. intros k. cbn [stack_effect]. unfold put. rewrite I, J.
      destruct (Nat.eqb_spec k i), (Nat.eqb_spec k j); congruence.
    + set (w0 := MkWorld (cells w) (vars w) (built w) (ended w) (lost w) l0) in *.
      assert (H0 : S 0 w0 st) by exact H. assert (TN : throws w <> []) by congruence.
      destruct (S_tally 0 w0 st H0) as [w1 [T1 [T2 T3]]]. unfold bind at 1 in E. rewrite T1 in E.
      destruct (S_destroy 1 w1 st i u T2 I) as [w2 [D1 [D2 D3]]].
      unfold bind at 1, on_throw in E. unfold bind at 1 in E. rewrite D1 in E. unfold bind at 1 in E.
      rewrite (S_read 1 w2 _ j v D2) in E by (rewrite put_other by congruence; exact J).
      destruct (S_construct 1 w2 _ i v D2 (put_same _ _ _)) as [[w3 [C1 C2]]|[w3 [C1 [C2 C3]]]]; unfold bind at 1 in E; rewrite C1 in E.
      * assert (J3 : put (put st i (Some None)) i (Some (Some v)) j = Some (Some v)) by (rewrite fold_put, put_other by congruence; exact J).
        destruct (S_destroy 1 w3 _ j v C2 J3) as [w4 [F1 [F2 F3]]]. unfold bind at 1 in E. rewrite F1 in E.
        destruct (S_construct 1 w4 _ j u F2 (put_same _ _ _)) as [[w5 [G1 G2]]|[w5 [G1 [G2 G3]]]]; rewrite G1 in E.
        -- destruct (S_untally 0 w5 _ G2) as [w6 [U1 [U2 U3]]]. rewrite U1 in E.
           eapply done; [exact E|exact U2|]. intros k. cbn [stack_effect]. unfold put. rewrite I, J.
           destruct (Nat.eqb_spec k i), (Nat.eqb_spec k j); congruence.
        -- destruct (S_untally 0 w5 _ G2) as [w6 [U1 [U2 U3]]]. rewrite U1 in E.
           eapply failed; [exact E|exact U2|exact TN|]. split; [assumption|]. right. right. intros k. unfold put. rewrite J.
           destruct (Nat.eqb_spec k i), (Nat.eqb_spec k j); congruence.
      * destruct (S_untally 0 w3 _ C2) as [w6 [U1 [U2 U3]]]. rewrite U1 in E.
        eapply failed; [exact E|exact U2|exact TN|]. split; [assumption|]. right. left. reflexivity.
Qed.

Lemma w_write i v w (st : state) : S 0 w st -> full_in st i -> stack_works (Write i v) st w.
Proof.
  intros H [u I]. pose proof H as [A [B [C D]]].
  assert (E : stack_exec (Write i v) w = bind next_throws (fun b => if b then throw else fun w => Done tt (set_cell i 0 (Some v) w)) w).
  { cbn [stack_exec]. unfold bind at 1. rewrite (S_fields 0 w st i H) by congruence. unfold assign, bind at 1. rewrite (S_read 0 w st i u H I). reflexivity. }
  assert (G : forall l, S 0 (set_cell i 0 (Some v) (MkWorld (cells w) (vars w) (built w) (ended w) (lost w) l)) (put st i (Some (Some v)))).
  { intros l. unfold set_cell. cbn. rewrite C. rewrite <- (Nat.add_0_r (built w)), <- (Nat.add_0_r (ended w)).
    apply (S_change 0 0 w st i (Some (Some v))); [assumption| |reflexivity| |].
    - rewrite A, I. reflexivity.
    - rewrite I. reflexivity.
    - intros j k. unfold upd. destruct (j =? i); [|reflexivity]. destruct k; cbn; [reflexivity|]. rewrite B. reflexivity. }
  unfold bind, next_throws in E. destruct (throws w) as [|[] l] eqn:T.
  - eapply done; [exact E| |reflexivity]. specialize (G []). rewrite <- T in G. destruct w. exact G.
  - eapply failed; [exact E|exact H|congruence|intros k; reflexivity].
  - eapply done; [exact E|exact (G l)|reflexivity].
Qed.

Theorem stack_every_step o w (st : state) : S 0 w st -> stack_legal o st -> stack_works o st w.
Proof.
  intros H L. destruct o; cbn [stack_legal] in L.
  - destruct (S_create 0 w st i H L) as [A B]. eapply done; [|exact B|reflexivity]. cbn [stack_exec]. unfold create. rewrite A. reflexivity.
  - apply (create_build (NewValue i v) st w i v H L); [reflexivity|reflexivity|intros k; reflexivity].
  - destruct L. apply (w_copy _ i j); auto.
  - destruct L. apply (w_copy _ i j); auto.
  - destruct L as [v L]. destruct (S_destroy 0 w st i v H L) as [w1 [D1 [D2 D3]]].
    destruct (S_vanish 0 w1 _ i D2 (put_same _ _ _)) as [w2 [E1 E2]].
    eapply done; [|exact E2|apply fold_put]. cbn [stack_exec]. unfold bind at 1. rewrite (S_fields 0 w st i H) by congruence.
    unfold bind. rewrite D1. exact E1.
  - destruct L. apply (w_assign _ i j); auto.
  - destruct L. apply (w_assign _ i j); auto.
  - destruct L. apply w_swap; auto.
  - apply w_write; assumption.
  - assert (E : stack_exec (Emplace i v) w = construct i 0 v w).
    { cbn [stack_exec]. unfold bind. rewrite (S_fields 0 w st i H) by congruence. reflexivity. }
    destruct (S_construct 0 w st i v H L) as [[w' [C1 C2]]|[w' [C1 [C2 C3]]]]; rewrite C1 in E.
    + eapply done; [exact E|exact C2|reflexivity].
    + eapply failed; [exact E|exact C2|exact C3|intros k; reflexivity].
Qed.

Theorem stack_simulation :
  exists Rel : world -> state -> Prop,
    (forall oracle, Rel (start oracle) nothing) /\
    (forall (w : world) (st : state) (o : op V), Rel w st -> stack_legal o st -> exists w' st', stack_step o st w w' st' /\ Rel w' st') /\
    (forall (w : world) (st : state), Rel w st -> stack_seen w st /\ stack_balanced w st).
Proof.
  exists (S 0). split; [exact S_start|]. split; [intros w st o; apply stack_every_step|].
  intros w st H. split.
  - intros i v I. unfold stack_get, bind. rewrite (S_fields 0 w st i H) by congruence. apply (S_read 0 w st i v H I).
  - destruct H as [A [B [C [n [D E]]]]]. split; [assumption|]. intros l N I. rewrite E, Nat.add_0_r. f_equal. symmetry.
    apply (counted_length _ _ _ D N). intros i. rewrite I. unfold full_in. destruct (st i) as [[x|]|]; cbn; split; try discriminate; eauto.
    + intros [v F]. discriminate.
    + intros [v F]. discriminate.
Qed.
End Stack.

Section Heap.
Context {V : Type}.
Notation world := (aworld V).
Notation state := (state V).

Definition lift (st : state) : AnySpec.state V := fun k => option_map (option_map (Plain 0)) (st k).
Definition H (w : world) (st : state) : Prop := AnyProofs.R w (lift st).

Lemma lift_put (st : state) i x k : AnySpec.put (lift st) i (option_map (option_map (Plain 0)) x) k = lift (put st i x) k.
Proof. unfold AnySpec.put, lift, put. destruct (k =? i); reflexivity. Qed.

Lemma H_ext w (st st' : state) : H w st -> (forall k, st k = st' k) -> H w st'.
Proof. intros A B. apply (AnyProofs.R_ext _ _ _ A). intros k. unfold lift. rewrite B. reflexivity. Qed.

Lemma H_put w (st : state) i x : AnyProofs.R w (AnySpec.put (lift st) i (option_map (option_map (Plain 0)) x)) -> H w (put st i x).
Proof. intros A. apply (AnyProofs.R_ext _ _ _ A). apply lift_put. Qed.

Definition heap_works (o : op V) (st : state) (w : world) : Prop :=
  exists w' st', heap_step o st w w' st' /\ H w' st'.

Lemma hdone o (st st' : state) w w' : heap_exec o w = Done tt w' -> H w' st' -> (forall k, st' k = heap_effect o st k) -> heap_works o st w.
Proof. intros A B C. exists w', st'. split; [left; auto|assumption]. Qed.
Lemma hfailed o (st : state) w w' : heap_exec o w = Threw w' -> H w' st -> athrows w <> [] -> heap_works o st w.
Proof. intros A B C. exists w', st. split; [right; auto|assumption]. Qed.

Lemma look_full w (st : state) j v : H w st -> st j = Some (Some v) ->
  exists a, anys w j = Some (Some a) /\ heap w a = Some (Plain 0 v) /\ a < next w.
Proof. intros A B. apply (AnyProofs.look_full w (lift st) j (Plain 0 v) A). unfold lift. rewrite B. reflexivity. Qed.
Lemma look_empty w (st : state) j : H w st -> st j = Some None -> anys w j = Some None.
Proof. intros A B. apply (AnyProofs.look_empty w (lift st) j A). unfold lift. rewrite B. reflexivity. Qed.
Lemma look_none w (st : state) j : H w st -> st j = None -> anys w j = None.
Proof. intros A B. apply (AnyProofs.look_none w (lift st) j A). unfold lift. rewrite B. reflexivity. Qed.
Lemma look_some w (st : state) j : H w st -> st j <> None -> exists p, anys w j = Some p.
Proof.
  intros A B. destruct (st j) as [[v|]|] eqn:E; [| |contradiction].
  - destruct (look_full w st j v A E) as [a [C _]]. eauto.
  - rewrite (look_empty w st j A E). eauto.
Qed.
Lemma lift_not (st : state) j : st j <> None -> lift st j <> None.
Proof. unfold lift. destruct (st j); [discriminate|contradiction]. Qed.

Ltac red1 := cbn [heap next anys allocs frees athrows].

(* a new variable with a new object *)
Lemma new_object o (st : state) w i v : H w st -> st i = None ->
  heap_exec o w = declare i (abind (make_holder (Plain 0 v)) (fun a => aret (Some a))) w ->
  (forall k, put st i (Some (Some v)) k = heap_effect o st k) -> heap_works o st w.
Proof.
  intros A I E F. pose proof (look_none w st i A I) as L.
  destruct (AnyProofs.make_holder_cases (Plain 0 v) w) as [[l [T M]]|[l [T M]]].
  - eapply hfailed; [rewrite E; unfold declare, abind; rewrite L, M; reflexivity|apply AnyProofs.R_throws; exact A|rewrite T; discriminate].
  - eapply hdone; [rewrite E; unfold declare, abind; rewrite L, M; unfold aret, set_content; reflexivity| |exact F].
    red1. apply H_put. apply AnyProofs.R_fill; [exact A|]. unfold lift. rewrite I. reflexivity.
Qed.

Lemma target_full w (st : state) j v : H w st -> st j = Some (Some v) -> target j w = Done (Plain 0 v) w.
Proof. intros A B. destruct (look_full w st j v A B) as [a [C [D _]]]. unfold target, abind, content, deref. rewrite C, D. reflexivity. Qed.

Lemma swap_anys w (st : state) i j p q : H w st -> st i <> None -> st j <> None -> anys w i = Some p -> anys w j = Some q ->
  H (MkAny (heap w) (next w) (upd (upd (anys w) i (Some q)) j (Some p)) (allocs w) (frees w) (athrows w)) (put (put st j (st i)) i (st j)).
Proof.
  intros A I J P Q. pose proof (AnyProofs.R_swap w (lift st) i j (athrows w) A (lift_not st i I) (lift_not st j J)) as B.
  rewrite P, Q in B. apply (AnyProofs.R_ext _ _ _ B). intros k. unfold AnySpec.put, lift, put. destruct (k =? i); [reflexivity|].
  destruct (k =? j); reflexivity.
Qed.

Theorem heap_every_step o w (st : state) : H w st -> heap_legal o st -> heap_works o st w.
Proof.
  intros A L. destruct o; cbn [heap_legal] in L.
  - eapply hdone; [cbn [heap_exec]; unfold declare, abind, aret, set_content; rewrite (look_none w st i A L); reflexivity| |reflexivity].
    apply H_put. apply (AnyProofs.R_blank w (lift st) i (Some None)); [exact A|unfold lift; rewrite L; reflexivity|reflexivity].
  - apply (new_object _ st w i v A L); reflexivity.
  - destruct L as [I [v J]]. apply (new_object _ st w i v A I).
    + cbn [heap_exec]. unfold declare. destruct (anys w i); [reflexivity|]. unfold abind at 1. unfold abind at 1. rewrite (target_full w st j v A J).
      reflexivity.
    + intros k. cbn [heap_effect]. rewrite J. reflexivity.
  - destruct L as [I J]. pose proof (look_none w st i A I) as L. destruct (look_some w st j A J) as [p P].
    assert (D : j <> i) by (unfold exists_in in J; congruence).
    eapply hdone; [cbn [heap_exec]; unfold abind, content, declare; rewrite P, L; unfold abind, set_content, aret; reflexivity| |reflexivity].
    red1. cbn [heap_effect].
    assert (A1 : H (MkAny (heap w) (next w) (upd (anys w) i (Some None)) (allocs w) (frees w) (athrows w)) (put st i (Some None))).
    { apply H_put. apply (AnyProofs.R_blank w (lift st) i (Some None)); [exact A|unfold lift; rewrite I; reflexivity|reflexivity]. }
    assert (NJ : put st i (Some None) j <> None) by (rewrite put_other by assumption; exact J).
    assert (PJ : anys (MkAny (heap w) (next w) (upd (anys w) i (Some None)) (allocs w) (frees w) (athrows w)) j = Some p)
      by (red1; rewrite AnyProofs.upd_other by assumption; exact P).
    apply (swap_anys _ _ i j None p) in A1; [|rewrite put_same; discriminate|exact NJ|red1; apply AnyProofs.upd_same|exact PJ].
    cbn [heap next anys allocs frees athrows] in A1.
    eapply AnyProofs.R_wext; [eapply (H_ext _ _ _ A1)|..]; red1; try reflexivity.
    + intros k. rewrite put_same, (put_other st i _ j) by assumption. unfold put. destruct (k =? i); [reflexivity|]. destruct (k =? j); reflexivity.
    + intros k. unfold upd. destruct (Nat.eqb_spec k i), (Nat.eqb_spec k j); congruence.
  - unfold exists_in in L. destruct (st i) as [[v|]|] eqn:I; [| |contradiction].
    + destruct (look_full w st i v A I) as [a [P [Q _]]].
      eapply hdone; [cbn [heap_exec]; unfold abind, content, undeclare, release; rewrite P; red1; rewrite Q; reflexivity| |reflexivity].
      red1. apply H_put. apply (AnyProofs.R_clear w (lift st) i (Plain 0 v) None); [exact A|unfold lift; rewrite I; reflexivity|reflexivity|exact P].
    + eapply hdone; [cbn [heap_exec]; unfold abind, content, undeclare, release; rewrite (look_empty w st i A I); reflexivity| |reflexivity].
      apply H_put. apply (AnyProofs.R_blank w (lift st) i None); [exact A|unfold lift; rewrite I; reflexivity|reflexivity].
  - destruct L as [I [J F]]. destruct (look_some w st i A I) as [p P]. destruct (look_some w st j A J) as [q Q].
    assert (E : heap_exec (Assign i j) w = if i =? j then Done tt w else
      abind (target j) (fun x => abind (make_holder x) (fun a => replace i (Some a))) w).
    { cbn [heap_exec]. unfold abind at 1, content at 1. rewrite P. unfold abind at 1, content at 1. rewrite Q. destruct (i =? j); reflexivity. }
    destruct (Nat.eqb_spec i j) as [->|N].
    + eapply hdone; [exact E|exact A|]. intros k. cbn [heap_effect]. unfold put. destruct (Nat.eqb_spec k j) as [->|]; reflexivity.
    + destruct (F N) as [v G]. unfold abind at 1 in E. rewrite (target_full w st j v A G) in E.
      destruct (AnyProofs.make_holder_cases (Plain 0 v) w) as [[l [T M]]|[l [T M]]]; unfold abind at 1 in E; rewrite M in E.
      * eapply hfailed; [exact E|apply AnyProofs.R_throws; exact A|rewrite T; discriminate].
      * destruct (AnyProofs.replace_new w _ (lift st) i (Plain 0 v) l A (lift_not st i I) eq_refl) as [w' [W1 [W2 W3]]].
        rewrite W1 in E. eapply (hdone _ _ (put st i (Some (Some v)))); [exact E|apply H_put; exact W2|].
        intros k. cbn [heap_effect]. rewrite G. reflexivity.
  - destruct L as [I J]. destruct (look_some w st i A I) as [p P]. destruct (look_some w st j A J) as [q Q].
    assert (E : heap_exec (AssignMove i j) w = if i =? j then Done tt w else
      abind (set_content j None) (fun _ => replace i q) w).
    { cbn [heap_exec]. unfold abind at 1, content at 1. rewrite P. unfold abind at 1, content at 1. rewrite Q. destruct (i =? j); reflexivity. }
    destruct (Nat.eqb_spec i j) as [->|N].
    + eapply hdone; [exact E|exact A|]. intros k. cbn [heap_effect]. rewrite Nat.eqb_refl. reflexivity.
    + (* swap, then clear j *)
      pose proof (swap_anys w st i j p q A I J P Q) as A1.
      assert (X : lift (put (put st j (st i)) i (st j)) j <> None).
      { apply lift_not. rewrite put_other, put_same by congruence. exact I. }
      destruct (AnyProofs.replace_none _ _ j A1 X) as [w2 [W1 [W2 W3]]].
      assert (Y : exists w', replace i q (MkAny (heap w) (next w) (upd (anys w) j (Some None)) (allocs w) (frees w) (athrows w)) = Done tt w' /\
        (forall k, anys w' k = anys w2 k) /\ (forall a, heap w' a = heap w2 a) /\ next w' = next w2 /\ allocs w' = allocs w2 /\ frees w' = frees w2).
      { unfold replace, abind, content, set_content in W1 |- *. cbn [heap next anys allocs frees athrows] in W1 |- *.
        rewrite AnyProofs.upd_same in W1. rewrite AnyProofs.upd_other by assumption. rewrite P.
        unfold release in W1 |- *. cbn [heap next anys allocs frees athrows] in W1 |- *. destruct p as [a|].
        - destruct (heap w a); [|discriminate]. injection W1 as <-. eexists. split; [reflexivity|]. red1. split; [|repeat split].
          intros k. unfold upd. destruct (Nat.eqb_spec k i), (Nat.eqb_spec k j); congruence.
        - injection W1 as <-. eexists. split; [reflexivity|]. red1. split; [|repeat split].
          intros k. unfold upd. destruct (Nat.eqb_spec k i), (Nat.eqb_spec k j); congruence. }
      destruct Y as [w' [Y1 [Y2 [Y3 [Y4 [Y5 Y6]]]]]].
      eapply (hdone _ _ (put (put (put st j (st i)) i (st j)) j (Some None))); [| |].
      * rewrite E. unfold abind, set_content. exact Y1.
      * apply H_put. apply (AnyProofs.R_wext w2); assumption.
      * intros k. cbn [heap_effect]. apply Nat.eqb_neq in N. rewrite N. apply Nat.eqb_neq in N. unfold put.
        destruct (Nat.eqb_spec k i), (Nat.eqb_spec k j); congruence.
  - destruct L as [I J]. destruct (look_some w st i A I) as [p P]. destruct (look_some w st j A J) as [q Q].
    assert (E : heap_exec (Swap i j) w = if i =? j then Done tt w else
      abind (set_content i q) (fun _ => set_content j p) w).
    { cbn [heap_exec]. unfold abind at 1, content at 1. rewrite P. unfold abind at 1, content at 1. rewrite Q. destruct (i =? j); reflexivity. }
    destruct (Nat.eqb_spec i j) as [->|N].
    + eapply hdone; [exact E|exact A|]. intros k. cbn [heap_effect]. unfold put. destruct (Nat.eqb_spec k j) as [->|]; reflexivity.
    + eapply hdone; [exact E|exact (swap_anys w st i j p q A I J P Q)|reflexivity].
  - destruct L as [u I]. destruct (look_full w st i u A I) as [a [P [Q _]]].
    eapply hdone; [cbn [heap_exec]; unfold abind, content, deref; rewrite P, Q; reflexivity| |reflexivity].
    apply H_put. apply (AnyProofs.R_store (fun _ => true) w (lift st) i (Plain 0 u)); [exact A|unfold lift; rewrite I; reflexivity|exact P].
  - destruct L.
Qed.

Theorem heap_simulation :
  exists Rel : world -> state -> Prop,
    (forall oracle, Rel (astart oracle) nothing) /\
    (forall (w : world) (st : state) (o : op V), Rel w st -> heap_legal o st -> exists w' st', heap_step o st w w' st' /\ Rel w' st') /\
    (forall (w : world) (st : state), Rel w st -> heap_seen w st /\ heap_balanced w st).
Proof.
  exists H. split; [intros oracle; apply (AnyProofs.R_ext _ _ _ (AnyProofs.R_start oracle)); reflexivity|].
  split; [intros w st o; apply heap_every_step|].
  intros w st A. split.
  - intros i [v|] I; unfold heap_get, abind, content.
    + destruct (look_full w st i v A I) as [a [P [Q _]]]. rewrite P. unfold deref. rewrite Q. reflexivity.
    + rewrite (look_empty w st i A I). reflexivity.
  - destruct (AnyProofs.R_balanced w (lift st) A) as [B [C D]]. split; [exact B|]. split; [exact C|].
    intros l N I. apply D; [assumption|]. intros i. rewrite I. unfold full_in, AnySpec.full_in, lift.
    destruct (st i) as [[v|]|]; cbn; split; intros [x X]; try discriminate; eauto.
Qed.
End Heap.
