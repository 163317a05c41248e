(* Proofs about programs over filter iterators without an end. *)
From Coq Require Import List Bool Arith Lia.
From Verif Require Import FreeModel FreeSpec.
Import ListNotations.
Set Default Proof Using "Type".

Section Proofs.
Context {V : Type}.
Variable pol : policy.
Variable s : nat -> option V.
Implicit Types (p : V -> bool).

Definition clean (q : nat) (c : option V) : Prop := pol <> Plain -> c = s q /\ s q <> None.

Lemma accept_reject p q : accepted V s p q -> rejected V s p q -> False.
Proof. intros (a & A & P) (b & B & Q). congruence. Qed.
Lemma none_reject p q : s q = None -> rejected V s p q -> False.
Proof. intros N (b & B & Q). congruence. Qed.
Lemma ahead_unique p q f g : ahead V s p q f -> ahead V s p q g -> f = g.
Proof.
  destruct f as [r| |], g as [r'| |]; cbn [ahead]; intros H G; try reflexivity.
  - destruct H as (L & R & A), G as (L' & R' & A'). f_equal.
    destruct (Nat.lt_trichotomy r r') as [T|[T|T]]; [|exact T|]; exfalso.
    + apply (accept_reject p r A). apply R'. lia.
    + apply (accept_reject p r' A'). apply R. lia.
  - destruct H as (L & R & A), G as (r' & L' & R' & A'). exfalso.
    destruct (Nat.lt_trichotomy r r') as [T|[T|T]].
    + apply (accept_reject p r A). apply R'. lia.
    + subst r'. destruct A as (a & A & _). congruence.
    + apply (none_reject p r' A'). apply R. lia.
  - destruct H as (L & R & A). exfalso. apply (accept_reject p r A). now apply G.
  - destruct G as (L & R & A), H as (r & L' & R' & A'). exfalso.
    destruct (Nat.lt_trichotomy r r') as [T|[T|T]].
    + apply (none_reject p r A'). apply R. lia.
    + subst r'. destruct A as (a & A & _). congruence.
    + apply (accept_reject p r' A). apply R'. lia.
  - destruct H as (r & L' & R' & A'). exfalso. apply (none_reject p r A'). now apply G.
  - destruct G as (L & R & A). exfalso. apply (accept_reject p r' A). now apply H.
  - destruct G as (r & L' & R' & A'). exfalso. apply (none_reject p r A'). now apply H.
Qed.
Lemma behind_unique p q f g : behind V s p q f -> behind V s p q g -> f = g.
Proof.
  destruct f as [r| |], g as [r'| |]; cbn [behind]; intros H G; try reflexivity; try contradiction.
  - destruct H as (L & R & A), G as (L' & R' & A'). f_equal.
    destruct (Nat.lt_trichotomy r r') as [T|[T|T]]; [|exact T|]; exfalso.
    + apply (accept_reject p r' A'). apply R. lia.
    + apply (accept_reject p r A). apply R'. lia.
  - destruct H as (L & R & A). exfalso. destruct G as [G|(r' & L' & R' & A')].
    + apply (accept_reject p r A). now apply G.
    + destruct (Nat.lt_trichotomy r r') as [T|[T|T]].
      * apply (none_reject p r' A'). apply R. lia.
      * subst r'. destruct A as (a & A & _). congruence.
      * apply (accept_reject p r A). apply R'. lia.
  - destruct G as (L & R & A). exfalso. destruct H as [G|(r & L' & R' & A')].
    + apply (accept_reject p r' A). now apply G.
    + destruct (Nat.lt_trichotomy r r') as [T|[T|T]].
      * apply (accept_reject p r' A). apply R'. lia.
      * subst r'. destruct A as (a & A & _). congruence.
      * apply (none_reject p r A'). apply R. lia.
Qed.

Lemma save_clean q c a : s q = Some a -> clean q (save V pol c a).
Proof. intros H N. rewrite H. split; [|discriminate]. destruct pol; [congruence|reflexivity|reflexivity]. Qed.

Lemma forward_sound k q p c :
  match skip_forward V pol s k q p c with
  | Done (r, c') => ahead V s p q (At r) /\ clean r c'
  | Bad => ahead V s p q Out
  | Fuel => forall i, q <= i < q + k -> rejected V s p i
  end.
Proof.
  revert q c. induction k as [|k IH]; intros q c; cbn [skip_forward].
  - intros i H. lia.
  - destruct (s q) as [a|] eqn:Q; [|exists q; split; [lia|]; split; [intros i H; lia|exact Q]].
    destruct (p a) eqn:P.
    + split; [|now apply save_clean]. split; [lia|]. split; [intros i H; lia|]. exists a. auto.
    + assert (R : rejected V s p q) by (exists a; auto).
      specialize (IH (S q) (save V pol c a)).
      destruct (skip_forward V pol s k (S q) p (save V pol c a)) as [[r c']| |].
      * destruct IH as ((L & J & A) & C). split; [|exact C]. split; [lia|]. split; [|exact A].
        intros i H. destruct (Nat.eq_dec i q) as [->|]; [exact R|apply J; lia].
      * destruct IH as (r & L & J & A). exists r. split; [lia|]. split; [|exact A].
        intros i H. destruct (Nat.eq_dec i q) as [->|]; [exact R|apply J; lia].
      * intros i H. destruct (Nat.eq_dec i q) as [->|]; [exact R|apply IH; lia].
Qed.
Lemma backward_sound q p c :
  match skip_backward V pol s q p c with
  | Done (r, c') => behind V s p (S q) (At r) /\ clean r c'
  | Bad => behind V s p (S q) Out
  | Fuel => False
  end.
Proof.
  revert c. induction q as [|q IH]; intros c; cbn [skip_backward].
  - destruct (s 0) as [a|] eqn:Q; [|right; exists 0; split; [lia|]; split; [intros i H; lia|exact Q]].
    destruct (p a) eqn:P.
    + split; [|now apply save_clean]. split; [lia|]. split; [intros i H; lia|]. exists a. auto.
    + left. intros i H. replace i with 0 by lia. exists a. auto.
  - destruct (s (S q)) as [a|] eqn:Q; [|right; exists (S q); split; [lia|]; split; [intros i H; lia|exact Q]].
    destruct (p a) eqn:P.
    + split; [|now apply save_clean]. split; [lia|]. split; [intros i H; lia|]. exists a. auto.
    + assert (R : rejected V s p (S q)) by (exists a; auto). specialize (IH (save V pol c a)).
      destruct (skip_backward V pol s q p (save V pol c a)) as [[r c']| |]; [| |exact IH].
      * destruct IH as ((L & J & A) & C). split; [|exact C]. split; [lia|]. split; [|exact A].
        intros i H. destruct (Nat.eq_dec i (S q)) as [->|]; [exact R|apply J; lia].
      * destruct IH as [J|(r & L & J & A)].
        -- left. intros i H. destruct (Nat.eq_dec i (S q)) as [->|]; [exact R|apply J; lia].
        -- right. exists r. split; [lia|]. split; [|exact A].
           intros i H. destruct (Nat.eq_dec i (S q)) as [->|]; [exact R|apply J; lia].
Qed.

Definition same (a : option (nat * (V -> bool))) (b : option (iter V)) : Prop :=
  match a, b with
  | Some (q, p), Some i => pos i = q /\ pred i = p /\ clean q (cached i)
  | None, None => True
  | _, _ => False
  end.
Definition rel (st : marks V) (w : vars V) : Prop := forall x, same (st x) (w x).
Lemma rel_set st w x a b : rel st w -> same a b -> rel (is V st x a) (set V w x b).
Proof. intros R S y. unfold is, set. destruct (y =? x); [exact S|apply R]. Qed.

(* the search has not ended within the fuel *)
Definition short (k : nat) (o : eop V) (st : marks V) : Prop :=
  match o with
  | Make _ b p => forall i, b <= i < b + k -> rejected V s p i
  | Inc x | PostInc _ x => exists q p, st x = Some (q, p) /\ forall i, S q <= i < S q + k -> rejected V s p i
  | _ => False
  end.
Lemma copy_same q p i : same (Some (q, p)) (Some i) -> copy V pol i = Done i.
Proof.
  intros (P & Q & C). unfold copy. destruct pol eqn:E; [reflexivity|reflexivity|].
  destruct (cached i) eqn:X; [reflexivity|]. exfalso.
  assert (N : pol <> Plain) by congruence. destruct (C N) as (C1 & C2). congruence.
Qed.

Definition agrees k o st (r : res (seen V * vars V)) : Prop :=
  match r with
  | Done (a, w') => exists st', means V s o st (Step V a st') /\ rel st' w'
  | Bad => means V s o st (Wrong V)
  | Fuel => short k o st
  end.
Lemma exec_sound k o st w : rel st w -> agrees k o st (exec V pol s k o w).
Proof.
  intros R.
  assert (FW : forall i q p, same (Some (q, p)) (Some i) ->
    match forward V pol s k i with
    | Done j => exists r, after V s p q (At r) /\ same (Some (r, p)) (Some j)
    | Bad => after V s p q Out
    | Fuel => forall i, S q <= i < S q + k -> rejected V s p i
    end).
  { intros i q p (P & Q & C). unfold forward, landed. rewrite P, Q.
    pose proof (forward_sound k (S q) p (cached i)) as X.
    destruct (skip_forward V pol s k (S q) p (cached i)) as [[r c']| |]; cbn [bind]; [|exact X|exact X].
    destruct X as (X & Y). exists r. split; [exact X|]. cbn [same pos pred cached fst snd]. auto. }
  assert (BW : forall i q p, same (Some (q, p)) (Some i) ->
    match backward V pol s k i with
    | Done j => exists r, behind V s p q (At r) /\ same (Some (r, p)) (Some j)
    | Bad => behind V s p q Out
    | Fuel => False
    end).
  { intros i q p (P & Q & C). unfold backward, landed. rewrite P, Q. destruct q as [|q].
    - left. intros j H. lia.
    - pose proof (backward_sound q p (cached i)) as X.
      destruct (skip_backward V pol s q p (cached i)) as [[r c']| |]; cbn [bind]; [|exact X|exact X].
      destruct X as (X & Y). exists r. split; [exact X|]. cbn [same pos pred cached fst snd]. auto. }
  destruct o as [x b p|x y|x y|x y|x|x|z x|z x|x|x y|x y|x q]; cbn [exec].
  - unfold landed. pose proof (forward_sound k b p None) as X.
    destruct (skip_forward V pol s k b p None) as [[r c']| |]; cbn [bind agrees means]; [| |exact X].
    + destruct X as (X & Y). exists (is V st x (Some (r, p))). split; [exists (At r); split; [exact X|reflexivity]|].
      apply rel_set; [exact R|]. cbn [same pos pred cached fst snd]. auto.
    + exists Out. split; [exact X|reflexivity].
  - unfold with1. pose proof (R y) as Ry. cbn [agrees means]. destruct (w y) as [i|], (st y) as [[q p]|] eqn:Sy; cbn [same] in Ry; try contradiction; [|cbn [agrees means]; now rewrite Sy].
    destruct (x =? y) eqn:Q; cbn [agrees means bind].
    + exists st. rewrite Q, Sy. auto.
    + rewrite (copy_same q p i Ry). cbn [bind agrees means]. rewrite Q, Sy. eexists. split; [reflexivity|]. now apply rel_set.
  - unfold with1. pose proof (R y) as Ry. destruct (w y) as [i|], (st y) as [[q p]|] eqn:Sy; cbn [same] in Ry; try contradiction; [|cbn [agrees means]; now rewrite Sy].
    destruct (x =? y) eqn:Q; cbn [agrees means]; rewrite Q, Sy; (eexists; split; [reflexivity|]); [exact R|].
    apply rel_set; [now apply rel_set|exact I].
  - unfold with1. pose proof (R x) as Rx. pose proof (R y) as Ry.
    destruct (w x) as [i|], (st x) as [[q p]|] eqn:Sx; cbn [same] in Rx; try contradiction; [|cbn [agrees means]; now rewrite Sx].
    destruct (w y) as [j|], (st y) as [[q' p']|] eqn:Sy; cbn [same] in Ry; try contradiction; [|cbn [agrees means]; now rewrite Sx, Sy].
    cbn [agrees means]. rewrite Sx, Sy. eexists. split; [reflexivity|]. apply rel_set; [now apply rel_set|exact Rx].
  - unfold step, with1. pose proof (R x) as Rx. cbn [agrees means].
    destruct (w x) as [i|], (st x) as [[q p]|] eqn:Sx; cbn [same] in Rx; try contradiction; [|cbn [agrees means]; unfold moves; now rewrite Sx].
    pose proof (FW i q p Rx) as X. destruct (forward V pol s k i) as [j| |]; cbn [bind agrees means]; unfold moves; [| |exists q, p; auto]; rewrite Sx.
    + destruct X as (r & X & Y). eexists. split; [exists (At r); split; [exact X|reflexivity]|]. now apply rel_set.
    + exists Out. split; [exact X|reflexivity].
  - unfold step, with1. pose proof (R x) as Rx.
    destruct (w x) as [i|], (st x) as [[q p]|] eqn:Sx; cbn [same] in Rx; try contradiction; [|cbn [agrees means]; unfold moves; now rewrite Sx].
    pose proof (BW i q p Rx) as X. destruct (backward V pol s k i) as [j| |]; cbn [bind agrees means]; unfold moves; [| |contradiction]; rewrite Sx.
    + destruct X as (r & X & Y). eexists. split; [exists (At r); split; [exact X|reflexivity]|]. now apply rel_set.
    + exists Out. split; [exact X|reflexivity].
  - unfold post, with1. pose proof (R x) as Rx.
    destruct (w x) as [i|], (st x) as [[q p]|] eqn:Sx; cbn [same] in Rx; try contradiction; [|cbn [agrees means]; unfold moves; now rewrite Sx].
    rewrite (copy_same q p i Rx). cbn [bind].
    pose proof (FW i q p Rx) as X. destruct (forward V pol s k i) as [j| |]; cbn [bind agrees means]; unfold moves; [| |exists q, p; auto]; rewrite Sx.
    + destruct X as (r & X & Y). eexists. split; [exists (At r); split; [exact X|reflexivity]|]. apply rel_set; [now apply rel_set|exact Rx].
    + exists Out. split; [exact X|reflexivity].
  - unfold post, with1. pose proof (R x) as Rx.
    destruct (w x) as [i|], (st x) as [[q p]|] eqn:Sx; cbn [same] in Rx; try contradiction; [|cbn [agrees means]; unfold moves; now rewrite Sx].
    rewrite (copy_same q p i Rx). cbn [bind].
    pose proof (BW i q p Rx) as X. destruct (backward V pol s k i) as [j| |]; cbn [bind agrees means]; unfold moves; [| |contradiction]; rewrite Sx.
    + destruct X as (r & X & Y). eexists. split; [exists (At r); split; [exact X|reflexivity]|]. apply rel_set; [now apply rel_set|exact Rx].
    + exists Out. split; [exact X|reflexivity].
  - unfold with1, read. pose proof (R x) as Rx.
    destruct (w x) as [i|], (st x) as [[q p]|] eqn:Sx; cbn [same] in Rx; try contradiction; [|cbn [agrees means]; now rewrite Sx].
    destruct Rx as (P & Q & C).
    assert (X : match pol with Plain => s (pos i) | _ => cached i end = s q).
    { rewrite P. destruct pol eqn:E; [reflexivity| |]; (assert (N : pol <> Plain) by congruence; now destruct (C N)). }
    rewrite X. destruct (s q) as [v|] eqn:Z; cbn [agrees means]; rewrite Sx, Z; [|reflexivity]. exists st. auto.
  - unfold with1. pose proof (R x) as Rx. pose proof (R y) as Ry.
    destruct (w x) as [i|], (st x) as [[q p]|] eqn:Sx; cbn [same] in Rx; try contradiction; [|cbn [agrees means]; now rewrite Sx].
    destruct (w y) as [j|], (st y) as [[q' p']|] eqn:Sy; cbn [same] in Ry; try contradiction; [|cbn [agrees means]; now rewrite Sx, Sy].
    cbn [agrees means]. rewrite Sx, Sy. exists st. split; [|exact R]. destruct Rx as (-> & _), Ry as (-> & _). rewrite negb_involutive. reflexivity.
  - unfold with1. pose proof (R x) as Rx. pose proof (R y) as Ry.
    destruct (w x) as [i|], (st x) as [[q p]|] eqn:Sx; cbn [same] in Rx; try contradiction; [|cbn [agrees means]; now rewrite Sx].
    destruct (w y) as [j|], (st y) as [[q' p']|] eqn:Sy; cbn [same] in Ry; try contradiction; [|cbn [agrees means]; now rewrite Sx, Sy].
    cbn [agrees means]. rewrite Sx, Sy. exists st. split; [|exact R]. destruct Rx as (-> & _), Ry as (-> & _). reflexivity.
  - unfold with1. pose proof (R x) as Rx.
    destruct (w x) as [i|], (st x) as [[q' p]|] eqn:Sx; cbn [same] in Rx; try contradiction; [|cbn [agrees means]; now rewrite Sx].
    cbn [agrees means]. rewrite Sx. exists st. split; [|exact R]. destruct Rx as (-> & _). rewrite negb_involutive. reflexivity.
Qed.

Lemma means_unique o st n n' : means V s o st n -> means V s o st n' -> n = n'.
Proof.
  assert (M : forall x (dir : (V -> bool) -> nat -> found -> Prop) g, (forall p q f f', dir p q f -> dir p q f' -> f = f') ->
    moves V st x dir g n -> moves V st x dir g n' -> n = n').
  { intros x dir g U. unfold moves. destruct (st x) as [[q p]|]; [|congruence].
    intros (f & F & ->) (f' & F' & ->). now rewrite (U p q f f' F F'). }
  assert (UA : forall p q f f', after V s p q f -> after V s p q f' -> f = f') by (intros p q; apply ahead_unique).
  destruct o; cbn [means]; try congruence.
  - intros (f & F & ->) (f' & F' & ->). now rewrite (ahead_unique p b f f' F F').
  - now apply M.
  - apply M. exact behind_unique.
  - now apply M.
  - apply M. exact behind_unique.
  - destruct (st x) as [[q p]|]; [|congruence]. destruct (s q); congruence.
Qed.
Lemma ahead_bound p q f : ahead V s p q f -> f <> Never ->
  exists k0, forall k, k0 <= k -> ~ (forall i, q <= i < q + k -> rejected V s p i).
Proof.
  destruct f as [r| |]; cbn [ahead]; intros H N; [| |congruence].
  - destruct H as (L & R & A). exists (S (r - q)). intros k K J. apply (accept_reject p r A). apply J. lia.
  - destruct H as (r & L & R & A). exists (S (r - q)). intros k K J. apply (none_reject p r A). apply J. lia.
Qed.
Lemma enough o st n : means V s o st n -> n <> Hangs V -> exists k0, forall k, k0 <= k -> ~ short k o st.
Proof.
  assert (M : forall x g, moves V st x (after V s) g n -> n <> Hangs V ->
    exists k0, forall k, k0 <= k -> ~ (exists q p, st x = Some (q, p) /\ forall i, S q <= i < S q + k -> rejected V s p i)).
  { intros x g. unfold moves. destruct (st x) as [[q p]|].
    - intros (f & F & ->) N. destruct (ahead_bound p (S q) f F) as (k0 & K); [intros ->; now apply N|].
      exists k0. intros k L (q' & p' & E & J). injection E as <- <-. exact (K k L J).
    - intros _ _. exists 0. intros k _ (q & p & E & _). discriminate. }
  destruct o; cbn [means short]; intros H N; try (exists 0; intros; tauto).
  - destruct H as (f & F & ->). apply (ahead_bound p b f F). intros ->. now apply N.
  - exact (M _ _ H N).
  - exact (M _ _ H N).
Qed.

Definition fits (n : next V) (r : res (seen V * vars V)) : Prop :=
  match n, r with
  | Step _ a st, Done (a', w) => a = a' /\ rel st w
  | Wrong _, Bad => True
  | Hangs _, Fuel => True
  | _, _ => False
  end.
Lemma exec_fits o st n : means V s o st n ->
  exists k0, forall k w, k0 <= k -> rel st w -> fits n (exec V pol s k o w).
Proof.
  intros M.
  assert (X : n = Hangs V \/ n <> Hangs V) by (destruct n; [right|right|left]; congruence).
  destruct X as [->|N].
  - exists 0. intros k w _ R. pose proof (exec_sound k o st w R) as A.
    destruct (exec V pol s k o w) as [[a w']| |]; cbn [agrees fits] in *; [| |exact I].
    + destruct A as (st' & A & _). pose proof (means_unique o st _ _ M A). discriminate.
    + pose proof (means_unique o st _ _ M A). discriminate.
  - destruct (enough o st n M N) as (k0 & K). exists k0. intros k w L R. pose proof (exec_sound k o st w R) as A.
    destruct (exec V pol s k o w) as [[a w']| |]; cbn [agrees] in A.
    + destruct A as (st' & A & R'). rewrite (means_unique o st _ _ M A). split; [reflexivity|exact R'].
    + rewrite (means_unique o st _ _ M A). exact I.
    + exfalso. exact (K k L A).
Qed.
Lemma tells_run os st out : tells V s os st out ->
  exists k0, forall k w, k0 <= k -> rel st w -> run V pol s k os w = out.
Proof.
  induction 1 as [st|o os st a st' l e M T (k1 & IH)|o os st M|o os st M].
  - exists 0. reflexivity.
  - destruct (exec_fits o st _ M) as (k2 & K). exists (max k1 k2). intros k w L R. cbn [run].
    specialize (K k w ltac:(lia) R). destruct (exec V pol s k o w) as [[a' w']| |]; cbn [fits] in K; try contradiction.
    destruct K as (<- & R'). rewrite (IH k w'); [reflexivity|lia|exact R'].
  - destruct (exec_fits o st _ M) as (k2 & K). exists k2. intros k w L R. cbn [run].
    specialize (K k w L R). destruct (exec V pol s k o w) as [[a' w']| |]; cbn [fits] in K; try contradiction. reflexivity.
  - destruct (exec_fits o st _ M) as (k2 & K). exists k2. intros k w L R. cbn [run].
    specialize (K k w L R). destruct (exec V pol s k o w) as [[a' w']| |]; cbn [fits] in K; try contradiction. reflexivity.
Qed.
Lemma run_tells k os st w l e : rel st w -> run V pol s k os w = (l, e) -> e <> Forever -> tells V s os st (l, e).
Proof.
  revert st w l e. induction os as [|o os IH]; intros st w l e R H N; cbn [run] in H.
  - injection H as <- <-. constructor.
  - pose proof (exec_sound k o st w R) as A. destruct (exec V pol s k o w) as [[a w']| |]; cbn [agrees] in A.
    + destruct A as (st' & A & R'). destruct (run V pol s k os w') as [l' e'] eqn:Q. injection H as <- <-.
      apply (T_step V s o os st a st' l' e' A). exact (IH st' w' l' e' R' Q N).
    + injection H as <- <-. now constructor.
    + injection H as <- <-. congruence.
Qed.
End Proofs.
