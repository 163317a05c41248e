(* Proofs about scope guards, tuple algorithms and singletons. *)
From Coq Require Import List Bool Arith Permutation Lia.
From Verif Require Import UtilModel.
Import ListNotations.

(* ---- guards ---- *)
Definition live (p : nat * guard) : list nat := if invoke (snd p) then match action (snd p) with Some a => [a] | None => [] end else [].
Definition pending (gs : list (nat * guard)) : list nat := flat_map live gs.

Lemma find_cons : forall v w g gs, find v ((w, g) :: gs) = if Nat.eqb w v then Some g else find v gs.
Proof. intros. unfold find. cbn. destruct (Nat.eqb w v); reflexivity. Qed.
Lemma find_in : forall v g gs, find v gs = Some g -> In (v, g) gs.
Proof.
  induction gs as [|[w h] t IH]; [discriminate|]. rewrite find_cons. destruct (Nat.eqb_spec w v).
  - intros [= ->]. subst. left. reflexivity.
  - intros F. right. auto.
Qed.
Lemma find_none : forall v gs, find v gs = None -> ~ In v (map fst gs).
Proof.
  induction gs as [|[w h] t IH]; [auto|]. rewrite find_cons. destruct (Nat.eqb_spec w v); [discriminate|].
  intros F [E|I]; [contradiction|]. exact (IH F I).
Qed.
Lemma drop_absent : forall v gs, ~ In v (map fst gs) -> drop v gs = gs.
Proof.
  induction gs as [|[w h] t IH]; [reflexivity|]. intros N. cbn. destruct (Nat.eqb_spec w v).
  - subst. destruct N. left. reflexivity.
  - cbn. f_equal. apply IH. intros I. apply N. right. exact I.
Qed.
Lemma set_absent : forall v g gs, ~ In v (map fst gs) -> set v g gs = gs.
Proof.
  induction gs as [|[w h] t IH]; [reflexivity|]. intros N. cbn. destruct (Nat.eqb_spec w v).
  - subst. destruct N. left. reflexivity.
  - f_equal. apply IH. intros I. apply N. right. exact I.
Qed.
Lemma set_names : forall v g gs, map fst (set v g gs) = map fst gs.
Proof. intros. unfold set. rewrite map_map. apply map_ext. intros [w h]. cbn. destruct (Nat.eqb_spec w v); [subst|]; reflexivity. Qed.
Lemma find_set : forall v w g gs, find v (set w g gs) = if Nat.eqb w v then (if find v gs then Some g else None) else find v gs.
Proof.
  induction gs as [|[u h] t IH]; [cbn; destruct (Nat.eqb w v); reflexivity|]. unfold set in *. cbn [map fst].
  destruct (Nat.eqb_spec u w) as [->|].
  - rewrite !find_cons. destruct (Nat.eqb_spec w v); [reflexivity|]. rewrite IH. destruct (Nat.eqb_spec w v); [contradiction|reflexivity].
  - rewrite !find_cons. destruct (Nat.eqb_spec u v) as [->|].
    + destruct (Nat.eqb_spec w v); [congruence|reflexivity].
    + exact IH.
Qed.

(* the guards a program moves from *)
Definition sources (os : list gop) : list nat := flat_map (fun o => match o with MoveMake _ w => [w] | _ => [] end) os.
Definition assigns (o : gop) : bool := match o with MoveAssign _ _ => true | _ => false end.
Definition decent (os : list gop) : Prop := Forall (fun o => assigns o = false) os /\ NoDup (sources os).

Record ginv (todo : list nat) (s : gstate) : Prop := {
  g_names : NoDup (map fst (guards s));
  g_full : forall v g, In (v, g) (guards s) -> invoke g = true -> action g <> None;
  g_todo : forall v g, In (v, g) (guards s) -> invoke g = false -> ~ In v todo;
  g_hist : Permutation (made s) (called s ++ pending (guards s))
}.
Lemma ginv0 : forall l, ginv l gstate0.
Proof. intros. constructor; cbn; [constructor|tauto|tauto|apply perm_nil]. Qed.

Lemma pending_drop : forall v g gs, NoDup (map fst gs) -> find v gs = Some g -> Permutation (pending gs) (live (v, g) ++ pending (drop v gs)).
Proof.
  induction gs as [|[w h] t IH]; [discriminate|]. intros N F. rewrite find_cons in F. unfold drop in *. cbn [filter fst]. cbn in N. inversion N as [|? ? A B]; subst.
  destruct (Nat.eqb_spec w v) as [->|].
  - injection F as ->. cbn [negb pending flat_map]. fold (drop v t). rewrite (drop_absent v t A). reflexivity.
  - cbn [negb pending flat_map]. unfold pending in IH. rewrite (IH B F). rewrite !app_assoc. apply Permutation_app_tail, Permutation_app_comm.
Qed.
Lemma pending_set : forall v g h gs, NoDup (map fst gs) -> find v gs = Some g -> live (v, h) = [] -> Permutation (pending gs) (live (v, g) ++ pending (set v h gs)).
Proof.
  induction gs as [|[w k] t IH]; [discriminate|]. intros N F L. rewrite find_cons in F. unfold set in *. cbn [map fst]. cbn in N. inversion N as [|? ? A B]; subst.
  destruct (Nat.eqb_spec w v) as [->|].
  - injection F as ->. cbn [pending flat_map]. rewrite L. cbn [app]. fold (set v h t). rewrite (set_absent v h t A). reflexivity.
  - cbn [pending flat_map]. unfold pending in IH. rewrite (IH B F L). rewrite !app_assoc. apply Permutation_app_tail, Permutation_app_comm.
Qed.
Lemma drop_in : forall p v gs, In p (drop v gs) -> In p gs.
Proof. intros p v gs I. apply filter_In in I. tauto. Qed.
Lemma drop_names : forall v gs, NoDup (map fst gs) -> NoDup (map fst (drop v gs)).
Proof.
  induction gs as [|[w h] t IH]; intros N; [constructor|]. cbn in N. inversion N as [|? ? A B]; subst. unfold drop in *. cbn [filter fst]. destruct (Nat.eqb w v); cbn [negb]; [apply IH; exact B|].
  cbn. constructor; [|apply IH; exact B]. intros I. apply A. apply in_map_iff in I. destruct I as ([x y] & E & I). cbn in E. subst. apply drop_in in I. apply (in_map fst) in I. exact I.
Qed.

Section Finally.
Variables (throws : nat -> bool) (keeps lenient : bool).
Notation gstep := (gstep throws keeps lenient).
Notation grun := (grun throws keeps lenient).
Definition source (o : gop) : list nat := match o with MoveMake _ w => [w] | _ => [] end.
Lemma gstep_inv : forall o todo s, assigns o = false -> NoDup (source o ++ todo) -> ginv (source o ++ todo) s ->
  gstep o s <> GUB /\ forall s', gstep o s = GOk s' \/ gstep o s = GThrow s' -> ginv todo s'.
Proof.
  intros o todo s A ND I. destruct o as [v a|v a|v w|v w|v]; [| | |discriminate|]; cbn [UtilModel.gstep]; cbn [source app] in *.
  - destruct (find v (guards s)) eqn:F; [split; [discriminate|intros s' [X|X]; discriminate]|]. split; [discriminate|]. intros s' [[= <-]|X]; [|discriminate].
    destruct I as [N G T H]. constructor; cbn [guards made called].
    + cbn. constructor; [exact (find_none _ _ F)|exact N].
    + intros u g [[= <- <-]|J]; [discriminate|eauto].
    + intros u g [[= <- <-]|J]; [discriminate|eauto].
    + cbn [pending flat_map live snd invoke action app]. rewrite H. unfold pending. apply Permutation_middle.
  - destruct (find v (guards s)); split; try discriminate; intros s' [X|X]; try discriminate. injection X as <-. exact I.
  - destruct (find v (guards s)) eqn:F; [split; [discriminate|intros s' [X|X]; discriminate]|].
    destruct (find w (guards s)) as [g|] eqn:FW; [|split; [discriminate|intros s' [X|X]; discriminate]]. split; [discriminate|]. intros s' [[= <-]|X]; [|discriminate].
    inversion ND as [|? ? NW NT]; subst. destruct I as [N G T H]. set (h := Guard (moved keeps (action g)) false). pose proof (find_in _ _ _ FW) as IW.
    assert (INV : invoke g = true) by (destruct (invoke g) eqn:E; [reflexivity|destruct (T _ _ IW E); left; reflexivity]).
    assert (SET : forall u k, In (u, k) (set w h (guards s)) -> (u = w /\ k = h) \/ In (u, k) (guards s)).
    { intros u k J. apply in_map_iff in J. destruct J as ([x y] & E & J). cbn in E. destruct (Nat.eqb x w); injection E as <- <-; auto. }
    constructor; cbn [guards made called].
    + cbn. rewrite set_names. constructor; [exact (find_none _ _ F)|exact N].
    + intros u k [[= <- <-]|J]; [intros _; cbn; eauto|]. apply SET in J. destruct J as [[-> ->]|J]; [discriminate|eauto].
    + intros u k [[= <- <-]|J]; [discriminate|]. apply SET in J. destruct J as [[-> ->]|J]; [intros _; exact NW|].
      intros E X. apply (T _ _ J E). right. exact X.
    + rewrite H, (pending_set w g h _ N FW eq_refl). cbn [pending flat_map]. unfold live. cbn [snd invoke action]. rewrite INV. reflexivity.
  - destruct (find v (guards s)) as [g|] eqn:F; [|split; [discriminate|intros s' [X|X]; discriminate]].
    destruct I as [N G T H]. pose proof (find_in _ _ _ F) as IV. pose proof (pending_drop _ _ _ N F) as P. unfold live in P. cbn [snd] in P.
    destruct (invoke g) eqn:INV.
    + destruct (action g) as [a|] eqn:AC; [|destruct (G _ _ IV INV AC)].
      assert (K : ginv todo (GState (drop v (guards s)) (made s) (a :: called s))).
      { constructor; cbn [guards made called].
        - apply drop_names, N.
        - intros u k J. apply drop_in in J. eauto.
        - intros u k J. apply drop_in in J. eauto.
        - rewrite H, P. cbn [app]. symmetry. apply Permutation_middle. }
      cbn [guards made called]. destruct (throws a); split; try discriminate; intros s' [X|X]; try discriminate; injection X as <-; exact K.
    + split; [discriminate|]. intros s' [[= <-]|X]; [|discriminate]. constructor; cbn [guards made called].
      * apply drop_names, N.
      * intros u k J. apply drop_in in J. eauto.
      * intros u k J. apply drop_in in J. eauto.
      * rewrite H, P. reflexivity.
Qed.
Lemma grun_inv : forall os s, decent os -> ginv (sources os) s ->
  grun os s <> GUB /\ (forall s', grun os s <> GThrow s') /\ forall s', grun os s = GOk s' -> ginv [] s'.
Proof.
  induction os as [|o t IH]; intros s [A ND] I; cbn [UtilModel.grun].
  - split; [discriminate|]. split; [discriminate|]. intros s' [= <-]. exact I.
  - inversion A as [|? ? A1 A2]; subst. change (sources (o :: t)) with (source o ++ sources t) in *.
    destruct (gstep_inv o (sources t) s A1 ND I) as [U K].
    assert (ND' : NoDup (sources t)) by (destruct o; try exact ND; inversion ND; assumption).
    destruct (gstep o s) as [s1|s1| |]; [apply IH; [split; assumption|apply K; auto]|apply IH; [split; assumption|apply K; auto]|contradiction|].
    split; [discriminate|]. split; discriminate.
Qed.
(* a destructor never lets an exception out, whatever the state *)
Lemma destroy_quiet : forall v s s', gstep (Destroy v) s <> GThrow s'.
Proof.
  intros v s s'. cbn [UtilModel.gstep]. destruct (find v (guards s)) as [g|]; [|discriminate]. cbn [guards].
  destruct (invoke g); [|discriminate]. destruct (action g); [|discriminate]. destruct (throws n); discriminate.
Qed.

(* nested scopes *)
Lemma scopes : forall (vs : list (nat * nat)) s, NoDup (map fst vs) -> (forall v, In v (map fst vs) -> find v (guards s) = None) ->
  grun (map (fun p => Make (fst p) (snd p)) vs ++ map (fun p => Destroy (fst p)) (rev vs)) s =
  GOk (GState (guards s) (rev (map snd vs) ++ made s) (map snd vs ++ called s)).
Proof.
  assert (APP : forall a b s, grun (a ++ b) s = match grun a s with GOk s' => grun b s' | r => r end).
  { induction a as [|o a IH]; intros b s; [reflexivity|]. cbn [app UtilModel.grun]. destruct (gstep o s); auto. }
  induction vs as [|[v a] t IH]; intros s N F; [destruct s; reflexivity|]. cbn in N. inversion N as [|? ? A B]; subst.
  cbn [map rev fst snd]. rewrite map_app, !app_assoc. cbn [app]. cbn [UtilModel.grun UtilModel.gstep]. rewrite (F v) by (left; reflexivity).
  rewrite APP. rewrite IH.
  - cbn [guards made called map]. cbn [UtilModel.grun UtilModel.gstep guards fst]. rewrite find_cons, Nat.eqb_refl. cbn [invoke action guards made called].
    assert (D : drop v ((v, Guard (Some a) true) :: guards s) = guards s).
    { unfold drop. cbn [filter fst]. rewrite Nat.eqb_refl. cbn [negb]. apply drop_absent, find_none, F. left. reflexivity. }
    rewrite D. rewrite <- app_assoc. cbn [app]. destruct (throws a); reflexivity.
  - exact B.
  - intros u I. cbn [guards]. rewrite find_cons. destruct (Nat.eqb_spec v u); [subst; contradiction|]. apply F. right. exact I.
Qed.
End Finally.

(* ---- tuples ---- *)
Section Tuple.
Context {E St R : Type}.
(* the predicate was called on these elements in order, with these answers *)
Inductive calls (p : E -> St -> option (bool * St)) : list E -> St -> list bool -> St -> Prop :=
| c_nil s : calls p [] s [] s
| c_cons e s b s1 es bs s2 : p e s = Some (b, s1) -> calls p es s1 bs s2 -> calls p (e :: es) s (b :: bs) s2.
(* it threw on the element after these *)
Definition fails (p : E -> St -> option (bool * St)) (good : bool) (es : list E) (s : St) : Prop :=
  exists pre e post s1, es = pre ++ e :: post /\ calls p pre s (repeat good (length pre)) s1 /\ p e s1 = None.
Lemma all_of_iff : forall p es s, 
  (forall s1, all_of p es s = Some (true, s1) <-> calls p es s (repeat true (length es)) s1) /\
  (forall s1, all_of p es s = Some (false, s1) <-> exists pre e post s0, es = pre ++ e :: post /\ calls p pre s (repeat true (length pre)) s0 /\ p e s0 = Some (false, s1)) /\
  (all_of p es s = None <-> fails p true es s).
Proof.
  intros p. induction es as [|e t IH]; intros s; cbn [all_of].
  - split; [|split].
    + intros s1. split; [intros [= <-]; constructor|]. intros C. inversion C. reflexivity.
    + intros s1. split; [discriminate|]. intros (pre & e & post & s0 & X & _). destruct pre; discriminate.
    + split; [discriminate|]. intros (pre & e & post & s0 & X & _). destruct pre; discriminate.
  - destruct (p e s) as [[[] s']|] eqn:P.
    + destruct (IH s') as (I1 & I2 & I3). split; [|split].
      * intros s1. rewrite I1. cbn [length repeat]. split; [intros C; econstructor; eauto|]. intros C. inversion C; subst. congruence.
      * intros s1. rewrite I2. split.
        { intros (pre & x & post & s0 & -> & C & Q). exists (e :: pre), x, post, s0. split; [reflexivity|]. split; [cbn; econstructor; eauto|exact Q]. }
        { intros (pre & x & post & s0 & X & C & Q). destruct pre as [|y pre]; cbn in X; injection X as <- ->.
          - cbn in C. inversion C; subst. congruence.
          - cbn in C. inversion C; subst. match goal with H : p _ s = Some _ |- _ => rewrite P in H; injection H as <- end. exists pre, x, post, s0. auto. }
      * rewrite I3. unfold fails. split.
        { intros (pre & x & post & s0 & -> & C & Q). exists (e :: pre), x, post, s0. split; [reflexivity|]. split; [cbn; econstructor; eauto|exact Q]. }
        { intros (pre & x & post & s0 & X & C & Q). destruct pre as [|y pre]; cbn in X; injection X as <- ->.
          - cbn in C. inversion C; subst. congruence.
          - cbn in C. inversion C; subst. match goal with H : p _ s = Some _ |- _ => rewrite P in H; injection H as <- end. exists pre, x, post, s0. auto. }
    + split; [|split].
      * intros s1. split; [discriminate|]. cbn. intros C. inversion C; subst. congruence.
      * intros s1. split; [intros [= <-]; exists [], e, t, s; repeat split; [constructor|exact P]|].
        intros (pre & x & post & s0 & X & C & Q). destruct pre as [|y pre]; cbn in X; injection X as <- ->; cbn in C; inversion C; subst; congruence.
      * split; [discriminate|]. intros (pre & x & post & s0 & X & C & Q). destruct pre as [|y pre]; cbn in X; injection X as <- ->; cbn in C; inversion C; subst; congruence.
    + split; [|split].
      * intros s1. split; [discriminate|]. cbn. intros C. inversion C; subst. congruence.
      * intros s1. split; [discriminate|]. intros (pre & x & post & s0 & X & C & Q). destruct pre as [|y pre]; cbn in X; injection X as <- ->; cbn in C; inversion C; subst; congruence.
      * split; [|reflexivity]. intros _. exists [], e, t, s. repeat split; [constructor|exact P].
Qed.
(* any_of is all_of of the negated predicate *)
Definition negated (p : E -> St -> option (bool * St)) : E -> St -> option (bool * St) := fun e s => option_map (fun r => (negb (fst r), snd r)) (p e s).
Lemma any_all : forall p es s, any_of p es s = option_map (fun r => (negb (fst r), snd r)) (all_of (negated p) es s).
Proof.
  intros p. induction es as [|e t IH]; intros s; cbn [any_of all_of]; [reflexivity|]. unfold negated at 1. destruct (p e s) as [[[] s']|]; cbn; auto.
Qed.
Lemma calls_negated : forall p es s bs s1, calls (negated p) es s (map negb bs) s1 <-> calls p es s bs s1.
Proof.
  intros p. induction es as [|e t IH]; intros s bs s1; (split; intros C; [destruct bs as [|b bs]|]; inversion C; subst; try (constructor; fail)).
  - match goal with H : negated p e s = _ |- _ => unfold negated in H; rename H into H3 end.
    destruct (p e s) as [[b' s']|] eqn:P; [|discriminate]. cbn in H3. injection H3 as X <-.
    apply c_cons with s'; [|apply IH; assumption]. rewrite P. do 2 f_equal. destruct b, b'; (reflexivity || discriminate).
  - match goal with H : p e s = Some (_, ?x) |- _ => cbn; apply c_cons with x; [unfold negated; rewrite H; reflexivity|] end. apply IH. assumption.
Qed.
Lemma any_of_iff : forall p es s,
  (forall s1, any_of p es s = Some (false, s1) <-> calls p es s (repeat false (length es)) s1) /\
  (forall s1, any_of p es s = Some (true, s1) <-> exists pre e post s0, es = pre ++ e :: post /\ calls p pre s (repeat false (length pre)) s0 /\ p e s0 = Some (true, s1)) /\
  (any_of p es s = None <-> fails p false es s).
Proof.
  intros p es s. rewrite any_all. destruct (all_of_iff (negated p) es s) as (A & B & C).
  assert (REP : forall n, repeat true n = map negb (repeat false n)) by (induction n; cbn; congruence).
  split; [|split].
  - intros s1. specialize (A s1). rewrite REP, calls_negated in A. rewrite <- A. destruct (all_of (negated p) es s) as [[[] x]|]; cbn; split; congruence.
  - intros s1. specialize (B s1). transitivity (all_of (negated p) es s = Some (false, s1)); [destruct (all_of (negated p) es s) as [[[] x]|]; cbn; split; congruence|].
    rewrite B. split; intros (pre & e & post & s0 & X & Y & Z); exists pre, e, post, s0; (split; [exact X|]).
    + rewrite REP, calls_negated in Y. split; [exact Y|]. unfold negated in Z. destruct (p e s0) as [[[] x]|]; cbn in Z; congruence.
    + rewrite REP, calls_negated. split; [exact Y|]. unfold negated. rewrite Z. reflexivity.
  - transitivity (all_of (negated p) es s = None); [destruct (all_of (negated p) es s) as [[[] x]|]; cbn; split; congruence|].
    rewrite C. unfold fails. split; intros (pre & e & post & s0 & X & Y & Z); exists pre, e, post, s0; (split; [exact X|]).
    + rewrite REP, calls_negated in Y. split; [exact Y|]. unfold negated in Z. destruct (p e s0) as [[[] x]|]; cbn in Z; congruence.
    + rewrite REP, calls_negated. split; [exact Y|]. unfold negated. rewrite Z. reflexivity.
Qed.

(* the states a functor passes through *)
Inductive visits (f : E -> St -> option St) : list E -> St -> St -> Prop :=
| v_nil s : visits f [] s s
| v_cons e s s1 es s2 : f e s = Some s1 -> visits f es s1 s2 -> visits f (e :: es) s s2.
Lemma for_each_iff : forall f es s,
  (forall s1, for_each f es s = Some s1 <-> visits f es s s1) /\
  (for_each f es s = None <-> exists pre e post s0, es = pre ++ e :: post /\ visits f pre s s0 /\ f e s0 = None).
Proof.
  intros f. induction es as [|e t IH]; intros s; cbn [for_each].
  - split; [intros s1; split; [intros [= <-]; constructor|intros C; inversion C; reflexivity]|].
    split; [discriminate|]. intros (pre & e & post & s0 & X & _). destruct pre; discriminate.
  - destruct (f e s) as [s'|] eqn:F.
    + destruct (IH s') as [A B]. split.
      * intros s1. rewrite A. split; [intros V; econstructor; eauto|]. intros V. inversion V; subst. congruence.
      * rewrite B. split.
        { intros (pre & x & post & s0 & -> & V & Q). exists (e :: pre), x, post, s0. split; [reflexivity|]. split; [econstructor; eauto|exact Q]. }
        { intros (pre & x & post & s0 & X & V & Q). destruct pre as [|y pre]; cbn in X; injection X as <- ->.
          - inversion V; subst. congruence.
          - inversion V; subst. match goal with H : f _ s = Some _ |- _ => rewrite F in H; injection H as <- end. exists pre, x, post, s0. auto. }
    + split.
      * intros s1. split; [discriminate|]. intros V. inversion V; subst. congruence.
      * split; [|reflexivity]. intros _. exists [], e, t, s. repeat split; [constructor|exact F].
Qed.

(* the calls of a transform, in the order they happened *)
Inductive made_calls (f : E -> St -> option (R * St)) (es : list E) : list nat -> St -> list (nat * R) -> St -> Prop :=
| m_nil s : made_calls f es [] s [] s
| m_cons i e s r s1 is rs s2 : nth_error es i = Some e -> f e s = Some (r, s1) -> made_calls f es is s1 rs s2 -> made_calls f es (i :: is) s ((i, r) :: rs) s2.
Lemma transform_in_calls : forall (f : E -> St -> option (R * St)) es order s acc out s1, NoDup order -> transform_in f es order s acc = Some (out, s1) ->
  exists rs, made_calls f es order s rs s1 /\ map fst rs = order /\ (forall i r, In (i, r) rs -> out i = Some r) /\ (forall i, ~ In i order -> out i = acc i).
Proof.
  intros f es. induction order as [|i t IH]; intros s acc out s1 N T; cbn [transform_in] in T.
  - injection T as <- <-. exists []. split; [constructor|]. split; [reflexivity|]. split; [intros i r []|auto].
  - destruct (nth_error es i) as [e|] eqn:X; [|discriminate]. destruct (f e s) as [[r s']|] eqn:F; [|discriminate].
    inversion N as [|? ? NI NT]; subst. apply IH in T; [|exact NT]. destruct T as (rs & C & M & O & K). exists ((i, r) :: rs).
    split; [econstructor; eauto|]. split; [cbn; congruence|]. split.
    + intros j q [[= <- <-]|J]; [|auto]. rewrite K by exact NI. rewrite Nat.eqb_refl. reflexivity.
    + intros j NJ. rewrite K; [|intros J; apply NJ; right; exact J]. destruct (Nat.eqb_spec j i); [subst; destruct NJ; left; reflexivity|reflexivity].
Qed.
Lemma transform_calls : forall (f : E -> St -> option (R * St)) es order s out s1, Permutation order (seq 0 (length es)) -> transform f es order s = Some (out, s1) ->
  exists rs, made_calls f es order s rs s1 /\ length out = length es /\ forall i r, In (i, r) rs -> nth_error out i = Some (Some r).
Proof.
  intros f es order s out s1 P T. unfold transform in T. destruct (transform_in f es order s (fun _ => None)) as [[o s']|] eqn:I; [|discriminate].
  cbn in T. injection T as <- <-. apply transform_in_calls in I; [|apply (Permutation_NoDup (Permutation_sym P)), seq_NoDup].
  destruct I as (rs & C & M & O & _). exists rs. split; [exact C|]. unfold collect. split; [rewrite map_length, seq_length; reflexivity|].
  intros i r J. apply O in J as J'. assert (L : i < length es). { apply (in_map fst) in J. rewrite M in J. apply (Permutation_in _ P), in_seq in J. cbn in J. lia. }
  rewrite nth_error_map. replace (nth_error (seq 0 (length es)) i) with (Some i); [cbn; congruence|]. symmetry. clear -L.
  rewrite nth_error_nth' with (d := 0) by (rewrite seq_length; exact L). rewrite seq_nth by exact L. reflexivity.
Qed.
(* a functor whose result does not depend on the state *)
Lemma transform_pure : forall (f : E -> St -> option (R * St)) es order s (g : E -> R), (forall e x, exists x', f e x = Some (g e, x')) -> Permutation order (seq 0 (length es)) ->
  exists s1, transform f es order s = Some (map (fun e => Some (g e)) es, s1).
Proof.
  intros f es order s g G P.
  assert (A : forall l x acc, (forall i, In i l -> i < length es) -> exists out x', transform_in f es l x acc = Some (out, x')).
  { induction l as [|i l IH]; intros x acc B; cbn [transform_in]; [eauto|]. destruct (nth_error es i) as [e|] eqn:X.
    - destruct (G e x) as [x' ->]. apply IH. intros j J. apply B. right. exact J.
    - apply nth_error_None in X. specialize (B i (or_introl eq_refl)). lia. }
  destruct (A order s (fun _ => None)) as (out & s1 & T). { intros i I. apply (Permutation_in _ P), in_seq in I. lia. }
  exists s1. unfold transform. rewrite T. cbn. do 2 f_equal. apply transform_in_calls in T; [|apply (Permutation_NoDup (Permutation_sym P)), seq_NoDup].
  destruct T as (rs & C & M & O & _).
  assert (V : forall i e, nth_error es i = Some e -> out i = Some (g e)).
  { intros i e X. assert (I : In i order). { apply (Permutation_in _ (Permutation_sym P)), in_seq. split; [lia|]. cbn. apply nth_error_Some. congruence. }
    rewrite <- M in I. apply in_map_iff in I. destruct I as ([j r] & <- & J). cbn in *. rewrite (O _ _ J). f_equal.
    clear -C J X G. induction C as [|i' e' s r' s1 is rs s2 N F C IH]; [contradiction|]. destruct J as [[= -> ->]|J]; [|auto].
    assert (e' = e) by congruence. subst. destruct (G e s) as [x' Y]. congruence. }
  unfold collect. clear -V. assert (W : forall k l, (forall i e, nth_error l i = Some e -> out (k + i) = Some (g e)) -> map out (seq k (length l)) = map (fun e => Some (g e)) l).
  { intros k l. revert k. induction l as [|e l IH]; intros k H; [reflexivity|]. cbn. f_equal; [rewrite <- (Nat.add_0_r k); apply H; reflexivity|].
    apply IH. intros i x X. rewrite Nat.add_succ_comm. apply H. exact X. }
  apply W. exact V.
Qed.
End Tuple.

(* ---- singletons ---- *)
Definition answers (n : nat) (rs : list (option nat)) : Prop := Forall (fun r => r = None \/ r = Some n) rs.
Lemma uses_ready : forall oks n k d, uses oks (SState (Some n) k d) = (map (fun _ => Some n) oks, SState (Some n) k d).
Proof. induction oks as [|ok t IH]; intros n k d; [reflexivity|]. cbn. rewrite IH. reflexivity. Qed.
Lemma uses_split : forall oks, exists k, k <= length oks /\
  (forall i, i < k -> nth_error oks i = Some false) /\ (k < length oks -> nth_error oks k = Some true) /\
  uses oks sstate0 = (repeat None k ++ repeat (Some 0) (length oks - k), if k <? length oks then SState (Some 0) 1 [] else sstate0).
Proof.
  induction oks as [|[] t IH].
  - exists 0. split; [lia|]. split; [intros; lia|]. split; [cbn; lia|]. reflexivity.
  - exists 0. split; [lia|]. split; [intros; lia|]. split; [reflexivity|].
    change (uses (true :: t) sstate0) with (let '(rs, s'') := uses t (SState (Some 0) 1 []) in (Some 0 :: rs, s'')). rewrite uses_ready. cbn [length Nat.sub repeat app Nat.ltb Nat.leb]. do 2 f_equal.
    clear. induction t; cbn; congruence.
  - destruct IH as (k & L & A & B & U). exists (S k). split; [cbn; lia|]. split; [|split].
    + intros [|i] H; [reflexivity|]. cbn. apply A. lia.
    + cbn [length nth_error]. intros. apply B. lia.
    + change (uses (false :: t) sstate0) with (let '(rs, s'') := uses t sstate0 in (@None nat :: rs, s'')). rewrite U. reflexivity.
Qed.

Definition settled (n : nat) (s : sstate) (m : mstate) : Prop :=
  shared m = s /\ Forall (fun p => p = AtTest \/ p = AtReturn \/ p = Has (Some n)) (at_ m).
Lemma mrun_settled : forall is n s m m', instance_ s = Some n -> settled n s m -> mrun is m = Some m' -> settled n s m'.
Proof.
  induction is as [|i t IH]; intros n s m m' N I R; cbn in R; [injection R as <-; exact I|].
  destruct (mstep i m) as [m1|] eqn:Q; [|discriminate]. apply (IH n s m1 m' N); [|exact R]. destruct I as [SH F].
  assert (REP : forall p, p = AtTest \/ p = AtReturn \/ p = Has (Some n) -> Forall (fun p => p = AtTest \/ p = AtReturn \/ p = Has (Some n)) (replace i p (at_ m))).
  { intros p HP. rewrite Forall_forall in *. intros x X. unfold replace in X. apply in_app_or in X. destruct X as [X|[<-|X]]; [|exact HP|].
    - apply F. rewrite <- (firstn_skipn i (at_ m)). apply in_or_app. auto.
    - apply F. rewrite <- (firstn_skipn (S i) (at_ m)). apply in_or_app. auto. }
  unfold mstep in Q. destruct (nth_error (at_ m) i) as [p|] eqn:E; [|discriminate]. apply nth_error_In in E as EI.
  rewrite Forall_forall in F. destruct (F _ EI) as [-> | [-> | ->]]; [| |discriminate]; injection Q as <-; rewrite SH, N; split; cbn [shared at_]; auto.
Qed.
