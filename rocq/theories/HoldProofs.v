(* Proofs about the small wrappers. *)
From Coq Require Import List Bool Arith Lia.
From Verif Require Import HoldModel HoldSpec.
Import ListNotations.

Lemma set_at {A} (s : vars A) i a k : set s i a k = if k =? i then Some a else s k.
Proof. reflexivity. Qed.

(* --- any_ptr --- *)

Lemma ptype_eqb_iff t u : ptype_eqb t u = true <-> t = u.
Proof.
  destruct t as [c v b|], u as [c' v' b'|]; cbn; try (split; discriminate || congruence).
  rewrite !andb_true_iff, !Bool.eqb_true_iff, Nat.eqb_eq. split; [intros [[-> ->] ->]; reflexivity|].
  intro E; injection E as -> -> ->; auto.
Qed.

Definition back (x : option (ptype * nat)) : option any_ptr :=
  match x with Some (t, p) => Some (mk_any p t) | None => None end.

Lemma a_run_app l o s : a_run (l ++ [o]) s = a_step o (a_run l s).
Proof. unfold a_run. rewrite fold_left_app. reflexivity. Qed.

Lemma a_run_given l : forall i, a_run l no_vars i = back (given (rev l) i).
Proof.
  induction l as [|o l IH] using rev_ind; intro i; [reflexivity|].
  rewrite a_run_app, rev_app_distr. cbn [rev app given].
  destruct o as [i' c v b p|i'|i' j]; cbn [a_step given].
  - rewrite set_at. destruct (i =? i'); [reflexivity|apply IH].
  - rewrite set_at. destruct (i =? i'); [reflexivity|apply IH].
  - rewrite IH. destruct (given (rev l) j) as [[t p]|]; cbn [back].
    + rewrite set_at. destruct (i =? i'); [reflexivity|apply IH].
    + rewrite IH. destruct (i =? i'); reflexivity.
Qed.

(* --- not_null --- *)

Lemma n_run_app debug l o : forall s, n_run debug (l ++ [o]) s =
  match n_run debug l s with Some s' => n_step debug o s' | None => None end.
Proof.
  induction l as [|x l IH]; intro s; cbn [n_run app].
  - destruct (n_step debug o s); reflexivity.
  - destruct (n_step debug x s); [apply IH|reflexivity].
Qed.

Lemma n_run_given debug l : forall s, n_run debug l no_vars = Some s -> forall i, s i = n_given (rev l) i.
Proof.
  induction l as [|o l IH] using rev_ind; intros s E i; [injection E as <-; reflexivity|].
  rewrite n_run_app in E. destruct (n_run debug l no_vars) as [s0|]; [|discriminate].
  specialize (IH s0 eq_refl). rewrite rev_app_distr. cbn [rev app].
  destruct o as [i' p|i' j]; cbn [n_step n_given] in *.
  - unfold nn_make in E. destruct (debug && (p =? 0)); [discriminate|]. injection E as <-.
    rewrite set_at. destruct (i =? i'); [reflexivity|apply IH].
  - rewrite (IH j) in E. destruct (n_given (rev l) j) as [q|]; injection E as <-.
    + rewrite set_at. destruct (i =? i'); [reflexivity|apply IH].
    + rewrite IH. destruct (i =? i'); reflexivity.
Qed.

Lemma n_run_stops debug l : forall s, n_run debug l s = None <-> debug = true /\ existsb nulls l = true.
Proof.
  induction l as [|o l IH]; intro s; cbn [n_run existsb].
  - split; [discriminate|intros [_ E]; discriminate].
  - destruct o as [i p|i j]; cbn [n_step nulls].
    + unfold nn_make. destruct debug; cbn [andb].
      * destruct p; cbn [Nat.eqb orb]; [tauto|apply IH].
      * rewrite IH. split; intros [E _]; discriminate.
    + cbn [orb]. destruct (s j); apply IH.
Qed.

Lemma n_given_in past : forall i p, n_given past i = Some p -> exists k, In (NMake k p) past.
Proof.
  induction past as [|o past IH]; intros i p E; [discriminate|].
  destruct o as [i' q|i' j]; cbn [n_given] in E.
  - destruct (i =? i'); [injection E as ->; exists i'; left; reflexivity|]. destruct (IH _ _ E) as (k & H). exists k; right; exact H.
  - destruct (i =? i').
    + destruct (n_given past j) as [q|] eqn:F.
      * injection E as ->. destruct (IH _ _ F) as (k & H). exists k; right; exact H.
      * destruct (IH _ _ E) as (k & H). exists k; right; exact H.
    + destruct (IH _ _ E) as (k & H). exists k; right; exact H.
Qed.

Lemma debug_not_null l s i p : n_run true l no_vars = Some s -> s i = Some p -> p <> 0.
Proof.
  intros E F Z. subst p. rewrite (n_run_given _ _ _ E) in F. apply n_given_in in F. destruct F as (k & H).
  assert (n_run true l no_vars = None); [|congruence].
  apply n_run_stops. split; [reflexivity|]. apply existsb_exists. exists (NMake k 0). split; [|reflexivity].
  apply in_rev. exact H.
Qed.

(* --- not_null of smart pointers --- *)

Lemma s_run_app debug l o : forall s, s_run debug (l ++ [o]) s =
  match s_run debug l s with Some s' => s_step debug o s' | None => None end.
Proof.
  induction l as [|x l IH]; intro s; cbn [s_run app].
  - destruct (s_step debug o s); reflexivity.
  - destruct (s_step debug x s); [apply IH|reflexivity].
Qed.

Lemma s_run_holds debug l : forall s, s_run debug l (mk_smart no_vars no_vars) = Some s ->
  (forall i, sp s i = holds (rev l) i) /\ (forall k, nn s k = wraps (rev l) k).
Proof.
  induction l as [|o l IH] using rev_ind; intros s E; [injection E as <-; split; reflexivity|].
  rewrite s_run_app in E. destruct (s_run debug l (mk_smart no_vars no_vars)) as [s0|]; [|discriminate].
  destruct (IH s0 eq_refl) as (H & W). rewrite rev_app_distr. cbn [rev app].
  destruct o as [i p|i|k i]; cbn [s_step] in E.
  - injection E as <-. cbn [sp nn holds wraps]. split; [|exact W]. intro i'. rewrite set_at. destruct (i' =? i); [reflexivity|apply H].
  - injection E as <-. cbn [sp nn holds wraps]. split; [|exact W]. intro i'. destruct (i' =? i); [reflexivity|apply H].
  - cbn [holds wraps]. rewrite <- H. destruct (sp s0 i) as [p|] eqn:Ei.
    + destruct (nn_make debug p); [|discriminate]. injection E as <-. cbn [sp nn]. split; [exact H|].
      intro k'. rewrite set_at. destruct (k' =? k); [reflexivity|apply W].
    + injection E as <-. split; [exact H|]. intro k'. destruct (k' =? k); apply W.
Qed.

(* --- instance_of --- *)

Lemma i_run_app cast l o : forall s, i_run cast (l ++ [o]) s =
  match i_run cast l s with Some s' => i_step cast o s' | None => None end.
Proof.
  induction l as [|x l IH]; intro s; cbn [i_run app].
  - destruct (i_step cast o s); reflexivity.
  - destruct (i_step cast x s); [apply IH|reflexivity].
Qed.

Lemma i_run_cast cast l : forall s, i_run cast l no_vars = Some s ->
  forall i q, s i = Some q -> q <> 0 /\ exists k p, In (IMake k p) l /\ cast p = q.
Proof.
  induction l as [|o l IH] using rev_ind; intros s E i q F; [injection E as <-; discriminate|].
  rewrite i_run_app in E. destruct (i_run cast l no_vars) as [s0|]; [|discriminate].
  assert (Old : forall i, s0 i = Some q -> q <> 0 /\ exists k p, In (IMake k p) (l ++ [o]) /\ cast p = q).
  { intros i' F'. destruct (IH s0 eq_refl i' q F') as (N & k & p & I & C). split; [exact N|].
    exists k, p. split; [apply in_or_app; left; exact I|exact C]. }
  assert (Copy : forall i' j, match s0 j with Some x => Some (set s0 i' x) | None => Some s0 end = Some s ->
    q <> 0 /\ exists k p, In (IMake k p) (l ++ [o]) /\ cast p = q).
  { intros i' j G. destruct (s0 j) as [x|] eqn:Ej; injection G as <-; [|apply (Old i F)].
    rewrite set_at in F. destruct (i =? i'); [injection F as ->; apply (Old j Ej)|apply (Old i F)]. }
  destruct o as [i' p|i' j k|i' j]; cbn [i_step] in E.
  - unfold io_make in E. destruct (Nat.eqb_spec (cast p) 0) as [Z|Z]; injection E as <-; [apply (Old i F)|].
    rewrite set_at in F. destruct (i =? i'); [|apply (Old i F)]. injection F as <-. split; [exact Z|].
    exists i', p. split; [apply in_or_app; right; left; reflexivity|reflexivity].
  - destruct (copy_compiles k); [|discriminate]. apply (Copy _ _ E).
  - apply (Copy _ _ E).
Qed.

(* --- compressed_pair --- *)

Lemma member_first t1 t2 a : member t1 t2 a = Some true <-> names_first t1 t2 a.
Proof.
  unfold names_first. destruct a as [| |[|] i|t]; cbn [member].
  - split; auto.
  - split; [discriminate|intros [H|[H|[H _]]]; discriminate].
  - split; [discriminate|intros [H|[H|[H _]]]; discriminate].
  - destruct i as [|[|i]]; split; auto; try discriminate; intros [H|[H|[H _]]]; discriminate.
  - destruct (Nat.eqb_spec t (name t1)) as [E1|N1], (Nat.eqb_spec t (name t2)) as [E2|N2]; cbn [andb negb].
    + split; [discriminate|intros [H|[H|[_ H]]]; congruence].
    + split; [|reflexivity]. intros _. right; right; split; [congruence|congruence].
    + split; [discriminate|]. intros [H|[H|[H _]]]; congruence.
    + split; [discriminate|]. intros [H|[H|[H _]]]; congruence.
Qed.

Lemma member_second t1 t2 a : member t1 t2 a = Some false <-> names_second t1 t2 a.
Proof.
  unfold names_second. destruct a as [| |[|] i|t]; cbn [member].
  - split; [discriminate|intros [H|[H|[H _]]]; discriminate].
  - split; auto.
  - split; [discriminate|intros [H|[H|[H _]]]; discriminate].
  - destruct i as [|[|i]]; split; auto; try discriminate; intros [H|[H|[H _]]]; discriminate.
  - destruct (Nat.eqb_spec t (name t1)) as [E1|N1], (Nat.eqb_spec t (name t2)) as [E2|N2]; cbn [andb negb].
    + split; [discriminate|intros [H|[H|[_ H]]]; congruence].
    + split; [discriminate|]. intros [H|[H|[H G]]]; congruence.
    + split; [|reflexivity]. intros _. right; right; split; [congruence|congruence].
    + split; [discriminate|]. intros [H|[H|[H _]]]; congruence.
Qed.

Lemma build_values t1 t2 c : has_values t1 t2 c ->
  build t1 t2 c = mk_pair (Some (fst (expect_ctor t1 t2 c))) (Some (snd (expect_ctor t1 t2 c))).
Proof.
  intro H. unfold build. destruct (compressed t1) eqn:C.
  - assert (E : is_empty t1 = true) by (unfold compressed in C; apply andb_true_iff in C; apply C).
    destruct c; cbn [expect_ctor fst snd]; unfold value_init, from; rewrite ?E; reflexivity.
  - destruct c; cbn [expect_ctor fst snd]; try reflexivity.
    cbn in H. destruct H as [H|[[A|A] [B|B]]]; try congruence; unfold default_init, value_init;
      rewrite ?A, ?B; destruct (is_empty t1), (is_empty t2); reflexivity || (exfalso; congruence) || (try rewrite A; try rewrite B; reflexivity).
Qed.

Lemma writes_values t1 t2 l p r : written t1 t2 l p r ->
  writes t1 t2 l (mk_pair (Some (fst p)) (Some (snd p))) = mk_pair (Some (fst r)) (Some (snd r)).
Proof.
  intro W. induction W as [p|a v l x y r N W IH|a v l x y r N W IH]; [reflexivity| |].
  - apply member_first in N. unfold writes in *. cbn [fold_left]. unfold write at 2. cbn [fst snd] in *. rewrite N. exact IH.
  - apply member_second in N. unfold writes in *. cbn [fold_left]. unfold write at 2. cbn [fst snd] in *. rewrite N. exact IH.
Qed.
