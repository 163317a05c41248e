(* Proofs about programs over filter iterators of both policies. *)
From Coq Require Import List Bool Arith Lia.
From Verif Require Import FiltModel FiltSpec FiltProofs MixModel MixSpec.
Import ListNotations.
Set Default Proof Using "Type".

Section Proofs.
Context {V : Type}.
Variable kept : policy.
Variable m : list V.
Hypothesis K : kept <> Plain.
Definition heap : bool := match kept with OnHeap => true | _ => false end.

Definition same (i : mark V) (j : iter V * bool) : Prop :=
  pos (fst j) = place i /\ last (fst j) = stop i /\ pred (fst j) = test i /\ snd j = caching i /\
  place i <= length m /\ stop i <= length m /\
  (caching i = true -> if blank i then True
                       else cached (fst j) <> None /\ (place i <> stop i -> cached (fst j) = nth_error m (place i))).
Definition rel (s : marks V) (w : vars V) : Prop :=
  forall x, match s x, w x with Some i, Some j => same i j | None, None => True | _, _ => False end.
Definition matched (a : option (seen V * marks V)) (b : option (seen V * vars V)) : Prop :=
  match a with
  | None => True
  | Some (o, s) => match b with Some (o', w) => o = o' /\ rel s w | None => False end
  end.
Lemma rel_set s w x i j : rel s w -> same i j -> rel (is V s x i) (set V w x j).
Proof. intros R S y. unfold is, set. destruct (y =? x); [exact S|apply R]. Qed.

Lemma rel_gone s w x : rel s w -> rel (gone V s x) (clear V w x).
Proof. intros R y. unfold gone, clear. destruct (y =? x); [exact I|apply R]. Qed.

(* the search forward from any position, with a cache or without *)
Lemma skip_any c q e p c1 : q <= length m -> e <= length m ->
  match settle V p m q e with
  | None => skip_forward V (pol kept c) (fuel V m) m q e p c1 = None
  | Some r => exists c', skip_forward V (pol kept c) (fuel V m) m q e p c1 = Some (r, c') /\ r <= length m /\
      (c = true -> if q =? e then c' = c1 else c' <> None /\ (r <> e -> c' = nth_error m r)) /\
      (c = true -> r <> e -> c' = nth_error m r)
  end.
Proof using K.
  intros Lq Le. assert (F : skip_forward V Plain (fuel V m) m q e p c1 = option_map (fun r => (r, c1)) (settle V p m q e)).
  { apply forward_plain; [assumption|assumption|unfold fuel; lia]. }
  pose proof (settle_le p m q e) as B. destruct c; cbn [pol].
  - pose proof (forward_cached kept (fuel V m) m q e p c1 c1 K) as X. rewrite F in X.
    destruct (settle V p m q e) as [r|] eqn:Z; cbn [option_map] in X; [|exact X].
    destruct X as (c' & X & Y & W). exists c'. split; [exact X|]. split; [exact (B r Lq Le eq_refl)|]. split; [|intros _; exact W].
    intros _. destruct (Nat.eqb_spec q e) as [->|N].
    + unfold fuel in X. cbn [skip_forward] in X. rewrite Nat.eqb_refl in X. injection X as _ <-. reflexivity.
    + split; [apply Y; right; exact N|exact W].
  - rewrite F. destruct (settle V p m q e) as [r|] eqn:Z; cbn [option_map]; [|reflexivity].
    exists c1. split; [reflexivity|]. split; [exact (B r Lq Le eq_refl)|]. split; discriminate.
Qed.
Lemma next_forward i j : same i j ->
  match next V m i with
  | None => forward V (pol kept (snd j)) m (fst j) = None
  | Some i' => exists j', forward V (pol kept (snd j)) m (fst j) = Some j' /\ same i' (j', snd j)
  end.
Proof using K.
  intros (P & L & T & C & B1 & B2 & S). unfold next, ahead, forward. rewrite P, L, T.
  destruct (Nat.ltb_spec (place i) (length m)) as [H|H]; [|reflexivity].
  pose proof (skip_any (snd j) (Datatypes.S (place i)) (stop i) (test i) (cached (fst j)) H B2) as X.
  destruct (settle V (test i) m (Datatypes.S (place i)) (stop i)) as [r|]; cbn [option_map].
  - destruct X as (c' & -> & X1 & X2 & X3). cbn [landed option_map fst snd]. rewrite L, T. eexists. split; [reflexivity|].
    unfold same. cbn [fst snd pos last pred cached place stop test caching blank].
    split; [reflexivity|]. split; [reflexivity|]. split; [reflexivity|]. split; [exact C|]. split; [exact X1|]. split; [exact B2|].
    intros Ci. rewrite Ci in C. specialize (S Ci). specialize (X2 C). specialize (X3 C).
    destruct (blank i), (Datatypes.S (place i) =? stop i); cbn [andb].
    + exact I.
    + exact X2.
    + subst c'. split; [now destruct S|exact X3].
    + exact X2.
  - rewrite X. reflexivity.
Qed.
Lemma prev_backward i j : same i j ->
  match prev V m i with
  | None => backward V (pol kept (snd j)) m (fst j) = None
  | Some i' => exists j', backward V (pol kept (snd j)) m (fst j) = Some j' /\ same i' (j', snd j)
  end.
Proof using K.
  intros (P & L & T & C & B1 & B2 & S). unfold prev, backward. rewrite P. destruct (place i) as [|q] eqn:Q; [reflexivity|].
  rewrite T. assert (F : skip_backward V Plain (fuel V m) m q (test i) (cached (fst j)) = option_map (fun r => (r, cached (fst j))) (behind V (test i) m (Datatypes.S q))).
  { apply backward_plain; [lia|unfold fuel; lia]. }
  pose proof (behind_lt (test i) m (Datatypes.S q)) as BL.
  destruct (snd j) eqn:J; cbn [pol].
  - pose proof (backward_cached kept (fuel V m) m q (test i) (cached (fst j)) (cached (fst j)) K) as X. rewrite F in X.
    destruct (behind V (test i) m (Datatypes.S q)) as [r|]; cbn [option_map] in *; [|rewrite X; reflexivity].
    destruct X as (c' & -> & X1 & X2). cbn [landed option_map fst snd]. rewrite L, T. eexists. split; [reflexivity|].
    unfold same. cbn [fst snd pos last pred cached place stop test caching blank].
    split; [reflexivity|]. split; [reflexivity|]. split; [reflexivity|]. split; [exact C|].
    split; [specialize (BL r eq_refl); lia|]. split; [exact B2|]. intros _. split; [exact X1|]. intros _. exact X2.
  - rewrite F. destruct (behind V (test i) m (Datatypes.S q)) as [r|]; cbn [option_map]; [|reflexivity].
    cbn [landed option_map fst snd]. rewrite L, T. eexists. split; [reflexivity|].
    unfold same. cbn [fst snd pos last pred cached place stop test caching blank].
    split; [reflexivity|]. split; [reflexivity|]. split; [reflexivity|]. split; [exact C|].
    split; [specialize (BL r eq_refl); lia|]. split; [exact B2|]. intros Ci. congruence.
Qed.
Lemma copied_copy i j : same i j ->
  match copied V heap i with
  | None => True
  | Some i' => i' = i /\ copy V (pol kept (snd j)) (fst j) = Some (fst j)
  end.
Proof using K.
  intros (P & L & T & C & B1 & B2 & S). unfold copied, heap, copy. rewrite C.
  destruct (caching i); cbn [pol]; [|rewrite andb_false_r; cbn [andb]; auto].
  specialize (S eq_refl). destruct kept; cbn [andb]; [congruence|auto|].
  destruct (blank i).
  - exact I.
  - destruct S as (S & _). destruct (cached (fst j)); [auto|congruence].
Qed.

Lemma does_exec o s w : rel s w -> matched (does V heap m o s) (exec V kept m o w).
Proof using K.
  intros R.
  destruct o as [x c b e p|x c y|x y|x y|x y|x|x|z x|z x|x|x y c]; cbn [does exec].
  - unfold make. destruct (Nat.leb_spec b (length m)); [|exact I]. destruct (Nat.leb_spec e (length m)); [|exact I]. cbn [andb].
    pose proof (skip_any c b e p None H H0) as X. destruct (settle V p m b e) as [r|]; [|exact I].
    destruct X as (c' & -> & X1 & X2 & X3). cbn [landed option_map fst snd last pred matched]. split; [reflexivity|].
    apply rel_set; [exact R|]. unfold same. cbn [fst snd pos last pred cached place stop test caching blank].
    split; [reflexivity|]. split; [reflexivity|]. split; [reflexivity|]. split; [reflexivity|]. split; [exact X1|]. split; [assumption|].
    intros Cc. specialize (X2 Cc). destruct (b =? e); [exact I|exact X2].
  - unfold with1. pose proof (R y) as Ry. destruct (s y) as [i|], (w y) as [[j c']|]; try contradiction; [|exact I].
    pose proof Ry as (P & L & T & C & B1 & B2 & S). cbn [fst snd] in *. subst c'. unfold convert.
    destruct (Bool.eqb c (caching i)) eqn:Q.
    + apply Bool.eqb_prop in Q. subst c. destruct (x =? y); cbn [andb]; [split; [reflexivity|exact R]|].
      pose proof (copied_copy i (j, caching i) Ry) as X. cbn [fst snd] in X. destruct (copied V heap i) as [i'|]; cbn [option_map matched]; [|exact I].
      destruct X as (-> & ->). cbn [option_map]. split; [reflexivity|]. now apply rel_set.
    + rewrite andb_false_r. cbn [option_map matched]. split; [reflexivity|]. apply rel_set; [exact R|].
      unfold same. cbn [fst snd pos last pred cached place stop test caching blank]. rewrite P, L, T.
      split; [reflexivity|]. split; [reflexivity|]. split; [reflexivity|]. split; [reflexivity|]. split; [exact B1|]. split; [exact B2|]. intros _. exact I.
  - unfold with1. pose proof (R x) as Rx. pose proof (R y) as Ry.
    destruct (s x) as [i|], (w x) as [[j a]|]; try contradiction; [|exact I].
    destruct (s y) as [i'|], (w y) as [[j' a']|]; try contradiction; [|exact I].
    destruct Rx as (_ & _ & _ & C & _), Ry as (P & L & T & C' & B1 & B2 & _). cbn [fst snd] in *. subst a a'.
    destruct (Bool.eqb (caching i) (caching i')); [exact I|]. cbn [matched]. split; [reflexivity|]. apply rel_set; [exact R|].
    unfold same. cbn [fst snd pos last pred cached place stop test caching blank]. rewrite P, L, T.
    split; [reflexivity|]. split; [reflexivity|]. split; [reflexivity|]. split; [reflexivity|]. split; [exact B1|]. split; [exact B2|]. intros _. exact I.
  - unfold with1. pose proof (R y) as Ry. destruct (s y) as [i|], (w y) as [[j a]|]; try contradiction; [|exact I].
    destruct (x =? y); [split; [reflexivity|exact R]|]. pose proof (R x) as Rx. pose proof Ry as (_ & _ & _ & C & _). cbn [snd] in C. subst a.
    destruct (s x) as [i'|], (w x) as [[j' a']|]; try contradiction.
    + destruct Rx as (_ & _ & _ & C' & _). cbn [snd] in C'. subst a'. destruct (Bool.eqb (caching i) (caching i')); [|exact I].
      split; [reflexivity|]. apply rel_gone. now apply rel_set.
    + split; [reflexivity|]. apply rel_gone. now apply rel_set.
  - unfold with1. pose proof (R x) as Rx. pose proof (R y) as Ry.
    destruct (s x) as [i|], (w x) as [[j a]|]; try contradiction; [|exact I].
    destruct (s y) as [i'|], (w y) as [[j' a']|]; try contradiction; [|exact I].
    pose proof Rx as (_ & _ & _ & C & _). pose proof Ry as (_ & _ & _ & C' & _). cbn [snd] in *. subst a a'.
    destruct (Bool.eqb (caching i) (caching i')) eqn:E; [|exact I]. apply Bool.eqb_prop in E. split; [reflexivity|].
    apply rel_set; [apply rel_set; [exact R|rewrite E; exact Ry]|exact Rx].
  - unfold moves, with1. pose proof (R x) as Rx. destruct (s x) as [i|], (w x) as [[j c']|]; try contradiction; [|exact I].
    pose proof (next_forward i (j, c') Rx) as X. cbn [fst snd] in X. destruct (next V m i) as [i'|]; cbn [option_map matched]; [|exact I].
    destruct X as (j' & -> & X). cbn [option_map]. split; [reflexivity|]. now apply rel_set.
  - unfold moves, with1. pose proof (R x) as Rx. destruct (s x) as [i|], (w x) as [[j c']|]; try contradiction; [|exact I].
    pose proof (prev_backward i (j, c') Rx) as X. cbn [fst snd] in X. destruct (prev V m i) as [i'|]; cbn [option_map matched]; [|exact I].
    destruct X as (j' & -> & X). cbn [option_map]. split; [reflexivity|]. now apply rel_set.
  - unfold post, with1. pose proof (R x) as Rx. destruct (s x) as [i|], (w x) as [[j c']|]; try contradiction; [|exact I].
    pose proof (copied_copy i (j, c') Rx) as Y. cbn [fst snd] in Y. destruct (copied V heap i) as [k|]; [|exact I]. destruct Y as (-> & ->).
    pose proof (next_forward i (j, c') Rx) as X. cbn [fst snd] in X. destruct (next V m i) as [i'|]; cbn [matched]; [|exact I].
    destruct X as (j' & -> & X). split; [reflexivity|]. apply rel_set; [now apply rel_set|exact Rx].
  - unfold post, with1. pose proof (R x) as Rx. destruct (s x) as [i|], (w x) as [[j c']|]; try contradiction; [|exact I].
    pose proof (copied_copy i (j, c') Rx) as Y. cbn [fst snd] in Y. destruct (copied V heap i) as [k|]; [|exact I]. destruct Y as (-> & ->).
    pose proof (prev_backward i (j, c') Rx) as X. cbn [fst snd] in X. destruct (prev V m i) as [i'|]; cbn [matched]; [|exact I].
    destruct X as (j' & -> & X). split; [reflexivity|]. apply rel_set; [now apply rel_set|exact Rx].
  - unfold with1, looks, read. pose proof (R x) as Rx. destruct (s x) as [i|], (w x) as [[j c']|]; try contradiction; [|exact I].
    destruct Rx as (P & L & T & C & B1 & B2 & S). cbn [fst snd] in *. subst c'.
    destruct (caching i); cbn [andb pol].
    + specialize (S eq_refl). destruct (blank i); cbn [orb option_map]; [exact I|]. destruct S as (S1 & S2).
      destruct (Nat.eqb_spec (place i) (stop i)); cbn [option_map]; [exact I|].
      destruct (nth_error m (place i)) as [v|] eqn:N; cbn [option_map matched]; [|exact I]. rewrite (S2 n).
      destruct kept; [congruence| |]; cbn [option_map]; auto.
    + rewrite P. destruct (nth_error m (place i)); cbn [option_map matched]; auto.
  - unfold with1. pose proof (R x) as Rx. pose proof (R y) as Ry.
    destruct (s x) as [i|], (w x) as [[j a]|]; try contradiction; [|exact I].
    destruct (s y) as [i'|], (w y) as [[j' a']|]; try contradiction; [|exact I].
    destruct Rx as (P & _ & _ & C & _), Ry as (P' & _ & _ & C' & _). cbn [fst snd] in *. subst a a'.
    destruct (Bool.eqb (caching i) c && Bool.eqb (caching i') c); [|exact I]. cbn [matched].
    rewrite P, P', negb_involutive. auto.
Qed.
Lemma story_run os s w obs : rel s w -> story V heap m os s = Some obs -> run V kept m os w = Some obs.
Proof using K.
  revert s w obs. induction os as [|o os IH]; intros s w obs R H; cbn [story run] in *; [exact H|].
  pose proof (does_exec o s w R) as M. destruct (does V heap m o s) as [[a s']|]; [|discriminate]. cbn [matched] in M.
  destruct (exec V kept m o w) as [[b w']|]; [|contradiction]. destruct M as (<- & R').
  destruct (story V heap m os s') as [k|] eqn:Q; [|discriminate]. rewrite (IH s' w' k R' Q). exact H.
Qed.

(* what has no meaning is undefined, reads and copies of blank iterators apart *)
Definition reads (o : mop V) : bool := match o with Read _ => true | _ => false end.
Lemma does_none o s w : rel s w -> heap = false -> reads o = false -> does V heap m o s = None -> exec V kept m o w = None.
Proof using K.
  intros R Hp Q D.
  assert (CP : forall i, copied V heap i = Some i) by (intros i; unfold copied; now rewrite Hp).
  destruct o as [x c b e p|x c y|x y|x y|x y|x|x|z x|z x|x|x y c]; cbn [reads] in Q; cbn [does exec] in *; [| | | | | | | | |discriminate|].
  - unfold make. destruct (Nat.leb_spec b (length m)); [|reflexivity]. destruct (Nat.leb_spec e (length m)); [|reflexivity]. cbn [andb] in *.
    pose proof (skip_any c b e p None H H0) as X. destruct (settle V p m b e); [discriminate|]. now rewrite X.
  - unfold with1. pose proof (R y) as Ry. destruct (s y) as [i|], (w y) as [[j c']|]; try contradiction; [|reflexivity]. exfalso.
    destruct (Bool.eqb c (caching i)); [|discriminate]. destruct (x =? y); [discriminate|]. rewrite CP in D. discriminate.
  - unfold with1. pose proof (R x) as Rx. pose proof (R y) as Ry.
    destruct (s x) as [i|], (w x) as [[j a]|]; try contradiction; [|reflexivity].
    destruct (s y) as [i'|], (w y) as [[j' a']|]; try contradiction; [|reflexivity].
    destruct Rx as (_ & _ & _ & C & _), Ry as (_ & _ & _ & C' & _). cbn [snd] in *. subst a a'.
    destruct (Bool.eqb (caching i) (caching i')); [reflexivity|discriminate].
  - unfold with1. pose proof (R y) as Ry. destruct (s y) as [i|], (w y) as [[j a]|]; try contradiction; [|reflexivity].
    destruct (x =? y); [discriminate|]. pose proof (R x) as Rx. destruct Ry as (_ & _ & _ & C & _). cbn [snd] in C. subst a.
    destruct (s x) as [i'|], (w x) as [[j' a']|]; try contradiction; [|discriminate].
    destruct Rx as (_ & _ & _ & C' & _). cbn [snd] in C'. subst a'. destruct (Bool.eqb (caching i) (caching i')); [discriminate|reflexivity].
  - unfold with1. pose proof (R x) as Rx. pose proof (R y) as Ry.
    destruct (s x) as [i|], (w x) as [[j a]|]; try contradiction; [|reflexivity].
    destruct (s y) as [i'|], (w y) as [[j' a']|]; try contradiction; [|reflexivity].
    destruct Rx as (_ & _ & _ & C & _), Ry as (_ & _ & _ & C' & _). cbn [snd] in *. subst a a'.
    destruct (Bool.eqb (caching i) (caching i')); [discriminate|reflexivity].
  - unfold moves, with1 in *. pose proof (R x) as Rx. destruct (s x) as [i|], (w x) as [[j c']|]; try contradiction; [|reflexivity].
    pose proof (next_forward i (j, c') Rx) as X. cbn [fst snd] in X. destruct (next V m i); [discriminate|]. now rewrite X.
  - unfold moves, with1 in *. pose proof (R x) as Rx. destruct (s x) as [i|], (w x) as [[j c']|]; try contradiction; [|reflexivity].
    pose proof (prev_backward i (j, c') Rx) as X. cbn [fst snd] in X. destruct (prev V m i); [discriminate|]. now rewrite X.
  - unfold post, with1 in *. pose proof (R x) as Rx. destruct (s x) as [i|], (w x) as [[j c']|]; try contradiction; [|reflexivity].
    pose proof (next_forward i (j, c') Rx) as X. cbn [fst snd] in X. rewrite CP in D. destruct (next V m i); [discriminate|]. rewrite X. now destruct (copy _ _ _).
  - unfold post, with1 in *. pose proof (R x) as Rx. destruct (s x) as [i|], (w x) as [[j c']|]; try contradiction; [|reflexivity].
    pose proof (prev_backward i (j, c') Rx) as X. cbn [fst snd] in X. rewrite CP in D. destruct (prev V m i); [discriminate|]. rewrite X. now destruct (copy _ _ _).
  - unfold with1. pose proof (R x) as Rx. pose proof (R y) as Ry.
    destruct (s x) as [i|], (w x) as [[j a]|]; try contradiction; [|reflexivity].
    destruct (s y) as [i'|], (w y) as [[j' a']|]; try contradiction; [|reflexivity].
    destruct Rx as (_ & _ & _ & C & _), Ry as (_ & _ & _ & C' & _). cbn [snd] in *. subst a a'.
    destruct (_ && _); [discriminate|reflexivity].
Qed.
Lemma story_exact os s w : rel s w -> heap = false -> forallb (fun o => negb (reads o)) os = true ->
  run V kept m os w = story V heap m os s.
Proof using K.
  revert s w. induction os as [|o os IH]; intros s w R Hp Q; cbn [story run forallb] in *; [reflexivity|].
  apply andb_prop in Q. destruct Q as (Q1 & Q2). apply negb_true_iff in Q1.
  pose proof (does_exec o s w R) as M. pose proof (does_none o s w R Hp Q1) as N.
  destruct (does V heap m o s) as [[a s']|]; [|now rewrite (N eq_refl)]. cbn [matched] in M.
  destruct (exec V kept m o w) as [[b w']|]; [|contradiction]. destruct M as (<- & R'). now rewrite (IH s' w' R' Hp Q2).
Qed.
End Proofs.
