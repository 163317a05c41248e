(* Pipelines: evaluating an expression gives a range that tracks its meaning. *)
From Coq Require Import ZArith List Bool Lia.
From Verif Require Import RangeModel RangeSpec RangeProofs.
Import ListNotations.
Local Open Scope Z_scope.

Scheme pipe_mind := Induction for pipe Sort Prop
  with pipes_mind := Induction for pipes Sort Prop.
Combined Scheme pipe_pipes_ind from pipe_mind, pipes_mind.

Definition good {A} (F f : nat) (p : pipe A) : Prop :=
  exists r R, eval f p = Ok r /\ tracks F (iter r) (meaning p) R /\
    R 0%nat (rfirst r) /\ R (length (meaning p)) (rlast r) /\
    (two_way p = true -> cat (iter r) <> Forward) /\
    (outside p = true -> stash (iter r) = false).

Definition goods {A} (F f n : nat) (p : pipes A) : Prop :=
  exists r R, evals f p = Ok r /\ weak F (iter r) (meanings n p) R /\
    R 0%nat (rfirst r) /\ R (length (meanings n p)) (rlast r) /\
    length (meanings n p) = n /\
    (two_ways p = true -> cat (iter r) <> Forward) /\
    (outsides p = true -> stash (iter r) = false).

Lemma good_more : forall A F G f (p : pipe A), (F <= G)%nat -> good F f p -> good G f p.
Proof.
  intros A F G f p L (r & R & E & T & H). exists r, R. split; [exact E|].
  split; [exact (tracks_more _ _ _ _ _ _ L T)|exact H].
Qed.

Lemma goods_more : forall A F G f n (p : pipes A), (F <= G)%nat -> goods F f n p -> goods G f n p.
Proof.
  intros A F G f n p L (r & R & E & T & H). exists r, R. split; [exact E|].
  split; [exact (weak_more _ _ _ _ _ _ L T)|exact H].
Qed.

Lemma zcons_ok : forall A B F (r : range A) (z : range B) xs ys R Q,
  tracks F (iter r) xs R -> weak F (iter z) ys Q -> length xs = length ys ->
  R 0%nat (rfirst r) -> R (length xs) (rlast r) ->
  Q 0%nat (rfirst z) -> Q (length ys) (rlast z) ->
  exists v V, zcons r z = Ok v /\ tracks F (iter v) (combine xs ys) V /\
    V 0%nat (rfirst v) /\ V (length xs) (rlast v) /\
    cat (iter v) = cat_min (cat (iter r)) (cat (iter z)) /\
    stash (iter v) = stash (iter r) || stash (iter z).
Proof.
  intros A B F r z xs ys R Q T W L R0 R1 Q0 Q1. unfold zcons.
  destruct (w_copy _ _ _ _ (t_weak _ _ _ _ T) _ _ R0) as (b & Eb & Rb).
  destruct (w_copy _ _ _ _ (t_weak _ _ _ _ T) _ _ R1) as (e & Ee & Re).
  rewrite Eb, Ee. cbn [bind]. eexists. eexists. split; [reflexivity|].
  cbn [iter rfirst rlast]. split; [exact (cons_tracks _ _ _ _ _ _ _ _ _ T W L)|].
  cbn [fst snd]. repeat split; try assumption. rewrite L. exact Q1.
Qed.

Lemma cat_min_two : forall a b, a <> Forward -> b <> Forward -> cat_min a b <> Forward.
Proof. intros [] []; cbn; congruence. Qed.

Theorem eval_good :
  (forall A (p : pipe A), sound p -> exists F, forall f, (F <= f)%nat -> good F f p) /\
  (forall A (p : pipes A), forall n, sounds n p -> exists F, forall f, (F <= f)%nat -> goods F f n p).
Proof.
  apply pipe_pipes_ind.
  - intros A c l i j (H0 & H1 & H2). exists 0%nat. intros f _. eexists. eexists.
    split; [reflexivity|]. cbn [container_range iter rfirst rlast meaning].
    split; [exact (container_tracks A c l i j 0%nat H0 H1 H2)|]. cbn beta.
    rewrite firstn_length, skipn_length. split; [split; lia|]. split; [split; lia|].
    split; [|reflexivity]. cbn [two_way container_iter cat]. destruct c; congruence.
  - intros t a b (H0 & H1 & H2 & H3 & H4). exists 0%nat. intros f _. eexists. eexists.
    split; [reflexivity|]. cbn [numeric_range iter rfirst rlast meaning].
    split; [exact (numeric_tracks t a b 0%nat H0 H1 H2 H3 H4)|]. cbn beta.
    rewrite map_length, seq_length. split; [split; lia|]. split; [split; lia|].
    split; [discriminate|]. cbn [outside]. discriminate.
  - intros A B g p IH S. destruct (IH S) as (F & H). exists F. intros f Lf.
    destruct (H f Lf) as (r & R & E & T & R0 & R1 & C & O).
    destruct (w_copy _ _ _ _ (t_weak _ _ _ _ T) _ _ R0) as (b & Eb & Rb).
    destruct (w_copy _ _ _ _ (t_weak _ _ _ _ T) _ _ R1) as (e & Ee & Re).
    exists (MkRange (transform_iter g (iter r)) b e), R. split; [cbn [eval]; rewrite E; cbn [bind]; unfold rmap; rewrite Eb, Ee; reflexivity|].
    cbn [iter rfirst rlast meaning]. split; [exact (transform_tracks _ _ g _ _ _ _ T)|].
    rewrite map_length. repeat split; assumption.
  - intros A d g p IH S.
    assert (S' : sound p) by (destruct d; [exact S|destruct S; assumption]).
    destruct (IH S') as (F & H). exists (F + length (meaning p) + 2)%nat. intros f Lf.
    destruct (H f ltac:(lia)) as (r & R & E & T & R0 & R1 & C & O).
    assert (FC : cat (iter r) <> Forward -> filter_cat (cat (iter r)) <> Forward).
    { unfold filter_cat. destruct (cat (iter r)); congruence. }
    destruct d as [|c].
    + destruct (filter_make_begin g F (iter r) (meaning p) R T f (rfirst r) (rlast r) Lf R0 R1) as (b & Eb & Rb).
      destruct (filter_make_end g F (iter r) (meaning p) R T f (rlast r) Lf R1) as (e & Ee & Re).
      exists (MkRange (filter_iter g (iter r)) b e), (filterR g (iter r) (meaning p) R).
      split; [cbn [eval]; rewrite E; cbn [bind]; unfold rfilter; rewrite Eb, Ee; reflexivity|].
      cbn [iter rfirst rlast meaning]. split; [exact (filter_tracks g F (iter r) (meaning p) R T)|].
      split; [exact Rb|]. split; [exact Re|]. split; [intro W; apply FC, C, W|exact O].
    + destruct S as [Ec _]. subst c.
      destruct (caching_make_begin g F (iter r) (meaning p) R T f (rfirst r) (rlast r) Lf R0 R1) as (b & Eb & Rb).
      destruct (caching_make_end g F (iter r) (meaning p) R T f (rlast r) Lf R1) as (e & Ee & Re).
      exists (MkRange (caching_iter CTrivial g (iter r)) (MkCs (cpos b) (cstop b) (cache b)) (MkCs (cpos e) (cstop e) (cache e))), (cachingR g (iter r) (meaning p) R).
      split; [cbn [eval]; rewrite E; cbn [bind]; unfold rfilter_caching; rewrite Eb, Ee; reflexivity|].
      cbn [iter rfirst rlast meaning]. split; [exact (caching_tracks g F (iter r) (meaning p) R T)|].
      split; [exact Rb|]. split; [exact Re|]. split; [intro W; apply FC, C, W|]. cbn [outside]. discriminate.
  - intros A p IH (S & S2 & S3). destruct (IH S) as (F & H). exists F. intros f Lf.
    destruct (H f Lf) as (r & R & E & T & R0 & R1 & C & O).
    destruct (w_copy _ _ _ _ (t_weak _ _ _ _ T) _ _ R0) as (b & Eb & Rb).
    destruct (w_copy _ _ _ _ (t_weak _ _ _ _ T) _ _ R1) as (e & Ee & Re).
    eexists. eexists. split; [cbn [eval]; rewrite E; cbn [bind]; unfold rreverse; rewrite Eb, Ee; reflexivity|].
    cbn [iter rfirst rlast meaning].
    split; [exact (reverse_tracks _ _ _ _ _ T (C S2) (O S3))|]. cbn beta. rewrite rev_length.
    split; [split; [lia|rewrite Nat.sub_0_r; exact Re]|].
    split; [split; [lia|rewrite Nat.sub_diag; exact Rb]|]. split; assumption.
  - intros A p IH (S & Ne). destruct (IH S) as (F & H). exists F. intros f Lf.
    destruct (H f Lf) as (r & R & E & T & R0 & R1 & C & O). cbn [eval meaning two_way outside].
    unfold good. cbn [eval meaning two_way outside]. rewrite E. cbn [bind].
    destruct (meaning p) as [|x xs] eqn:M; [congruence|]. cbn [tl].
    assert (N : exists b, std_next f (iter r) (rfirst r) = Ok b /\ R 1%nat b).
    { unfold std_next. destruct (w_copy _ _ _ _ (t_weak _ _ _ _ T) _ _ R0) as (b & Eb & Rb).
      rewrite Eb. cbn [bind]. destruct (cat (iter r)) eqn:Cr.
      - apply (w_inc _ _ _ _ (t_weak _ _ _ _ T) 0%nat b f Rb); [cbn; lia|exact Lf].
      - apply (w_inc _ _ _ _ (t_weak _ _ _ _ T) 0%nat b f Rb); [cbn; lia|exact Lf].
      - apply (w_add _ _ _ _ (t_weak _ _ _ _ T) 0%nat b Cr Rb). cbn. lia. }
    destruct N as (b & Eb & Rb).
    destruct (w_copy _ _ _ _ (t_weak _ _ _ _ T) _ _ R1) as (e & Ee & Re).
    unfold rtail. rewrite Eb. cbn [bind]. rewrite Ee. cbn [bind].
    eexists. eexists. split; [reflexivity|]. cbn [iter rfirst rlast].
    split; [exact (tail_tracks _ _ _ _ _ _ T)|]. repeat split; assumption.
  - intros A B p IH ps IHs (S & Ss). destruct (IH S) as (F & H). destruct (IHs _ Ss) as (G & H').
    exists (F + G)%nat. intros f Lf.
    destruct (good_more _ F (F + G) f p ltac:(lia) (H f ltac:(lia))) as (r & R & E & T & R0 & R1 & C & O).
    destruct (goods_more _ G (F + G) f _ ps ltac:(lia) (H' f ltac:(lia))) as (z & Q & Ez & W & Q0 & Q1 & L & Cz & Oz).
    destruct (zcons_ok _ _ _ r z _ _ R Q T W (eq_sym L) R0 R1 Q0 Q1) as (v & V & Ev & Tv & V0 & V1 & Cv & Ov).
    exists v, V. cbn [eval meaning two_way outside]. rewrite E, Ez. cbn [bind]. split; [exact Ev|].
    split; [exact Tv|]. split; [exact V0|]. split; [rewrite combine_length, L, Nat.min_id; exact V1|].
    split.
    + intro Y. apply andb_true_iff in Y. rewrite Cv. apply cat_min_two; [apply C|apply Cz]; apply Y.
    + intro Y. apply andb_true_iff in Y. rewrite Ov. rewrite O, Oz by apply Y. reflexivity.
  - intros n _. exists 0%nat. intros f _. exists znil, (fun k _ => (k <= n)%nat).
    cbn [evals meanings]. split; [reflexivity|]. split; [apply nil_weak|].
    rewrite repeat_length. repeat split; try lia. discriminate.
  - intros A B p IH ps IHs n (S & Ln & Ss). destruct (IH S) as (F & H). destruct (IHs _ Ss) as (G & H').
    exists (F + G)%nat. intros f Lf.
    destruct (good_more _ F (F + G) f p ltac:(lia) (H f ltac:(lia))) as (r & R & E & T & R0 & R1 & C & O).
    destruct (goods_more _ G (F + G) f _ ps ltac:(lia) (H' f ltac:(lia))) as (z & Q & Ez & W & Q0 & Q1 & L & Cz & Oz).
    assert (L' : length (meaning p) = length (meanings n ps)) by congruence.
    destruct (zcons_ok _ _ _ r z _ _ R Q T W L' R0 R1 Q0 Q1) as (v & V & Ev & Tv & V0 & V1 & Cv & Ov).
    exists v, V. cbn [evals meanings two_ways outsides]. rewrite E, Ez. cbn [bind]. split; [exact Ev|].
    split; [exact (t_weak _ _ _ _ Tv)|]. split; [exact V0|]. rewrite combine_length, <- L', Nat.min_id.
    split; [exact V1|]. split; [exact Ln|]. split.
    + intro Y. apply andb_true_iff in Y. rewrite Cv. apply cat_min_two; [apply C|apply Cz]; apply Y.
    + intro Y. apply andb_true_iff in Y. rewrite Ov. rewrite O, Oz by apply Y. reflexivity.
Qed.

(* ---- what the members of range compute on a tracking range ---- *)

Section Members.
Context {A : Type} (F : nat) (i : iterator A) (xs : list A) (R : nat -> state i -> Prop).
Hypothesis T : tracks F i xs R.

Lemma count_ok : forall m k n j s e, (length xs - j = m)%nat -> (m < k)%nat -> (F <= n)%nat ->
  R j s -> R (length xs) e -> count k n i s e = Ok (Z.of_nat m).
Proof using T.
  induction m as [|m IH]; intros k n j s e D K N Rs Re; destruct k as [|k]; try lia; cbn [count];
    pose proof (w_le _ _ _ _ (t_weak _ _ _ _ T) _ _ Rs) as Le.
  - replace j with (length xs) in Rs by lia.
    rewrite (w_ne _ _ _ _ (t_weak _ _ _ _ T) _ _ _ Rs Re). reflexivity.
  - rewrite (t_ne _ _ _ _ T _ _ _ _ Rs Re) by lia.
    destruct (w_inc _ _ _ _ (t_weak _ _ _ _ T) _ _ n Rs ltac:(lia) N) as (t & E & Rt).
    rewrite E. cbn [bind]. rewrite (IH k n (S j) t e) by (assumption || lia). cbn [bind]. f_equal. lia.
Qed.

Lemma elements_ok : forall m k n j s e, (length xs - j = m)%nat -> (m < k)%nat -> (F <= n)%nat ->
  R j s -> R (length xs) e -> elements k n i s e = Ok (skipn j xs).
Proof using T.
  induction m as [|m IH]; intros k n j s e D K N Rs Re; destruct k as [|k]; try lia; cbn [elements];
    pose proof (w_le _ _ _ _ (t_weak _ _ _ _ T) _ _ Rs) as Le.
  - replace j with (length xs) in * by lia.
    rewrite (w_ne _ _ _ _ (t_weak _ _ _ _ T) _ _ _ Rs Re). rewrite skipn_all. reflexivity.
  - rewrite (t_ne _ _ _ _ T _ _ _ _ Rs Re) by lia.
    destruct (nth_error xs j) as [a|] eqn:Na; [|apply nth_error_None in Na; lia].
    rewrite (w_deref _ _ _ _ (t_weak _ _ _ _ T) _ _ a n Rs Na N). cbn [bind].
    destruct (w_inc _ _ _ _ (t_weak _ _ _ _ T) _ _ n Rs ltac:(lia) N) as (t & E & Rt).
    rewrite E. cbn [bind]. rewrite (IH k n (S j) t e) by (assumption || lia). cbn [bind]. f_equal.
    symmetry. clear - Na. revert j Na. induction xs as [|x l IHl]; intros [|j] Na; cbn in Na; try discriminate.
    + injection Na as Na. subst. reflexivity.
    + cbn [skipn]. apply IHl. exact Na.
Qed.

Lemma accumulate_ok : forall B (g : B -> A -> B) m k n j s e z,
  (length xs - j = m)%nat -> (m < k)%nat -> (F <= n)%nat ->
  R j s -> R (length xs) e -> accumulate k n i g s e z = Ok (fold_left g (skipn j xs) z).
Proof using T.
  intro B. intro g.
  assert (G : forall k n s e l, elements k n i s e = Ok l ->
    forall z, accumulate k n i g s e z = Ok (fold_left g l z)).
  { induction k as [|k IH]; intros n s e l H z; cbn [elements accumulate] in *; [discriminate|].
    destruct (ne i s e); [|injection H as H; subst; reflexivity].
    destruct (deref i n s) as [a| |]; cbn [bind] in *; try discriminate.
    destruct (inc i n s) as [t| |]; cbn [bind] in *; try discriminate.
    destruct (elements k n i t e) as [l'| |] eqn:E; cbn [bind] in *; try discriminate.
    injection H as H. subst. cbn [fold_left]. apply IH. exact E. }
  intros m k n j s e z D K N Rs Re. apply G. apply (elements_ok m); assumption.
Qed.

Lemma walk_ok : forall back, (back = true -> cat i <> Forward) -> forall w k j s n, (F <= n)%nat ->
  R k s -> follow back (length xs) k w = Some j -> exists t, walk n i w s = Ok t /\ R j t.
Proof using T.
  intros back C. induction w as [|[] w IH]; intros k j s n N Rs H; cbn [walk follow] in *.
  - injection H as H. subst. exists s. split; [reflexivity|exact Rs].
  - destruct (Nat.ltb k (length xs)) eqn:E; [|discriminate]. apply Nat.ltb_lt in E.
    destruct (w_inc _ _ _ _ (t_weak _ _ _ _ T) _ _ n Rs E N) as (t & Et & Rt).
    rewrite Et. cbn [bind]. apply (IH (S k) j t n N Rt H).
  - destruct k as [|k]; [discriminate|]. destruct back; [|discriminate].
    destruct (w_dec _ _ _ _ (t_weak _ _ _ _ T) _ _ n (C eq_refl) Rs N) as (t & Et & Rt).
    rewrite Et. cbn [bind]. apply (IH k j t n N Rt H).
Qed.

End Members.

Section Pipelines.
Context {A : Type} (p : pipe A).
Hypothesis S : sound p.

Lemma pipe_list : exists F, forall f, (F <= f)%nat ->
  exists r, eval f p = Ok r /\ rlist f r = Ok (meaning p).
Proof using S.
  destruct (proj1 eval_good A p S) as (F & H). exists (F + length (meaning p) + 1)%nat. intros f Lf.
  destruct (H f ltac:(lia)) as (r & R & E & T & R0 & R1 & _). exists r. split; [exact E|]. unfold rlist.
  destruct (w_copy _ _ _ _ (t_weak _ _ _ _ T) _ _ R0) as (b & Eb & Rb).
  destruct (w_copy _ _ _ _ (t_weak _ _ _ _ T) _ _ R1) as (e & Ee & Re).
  rewrite Eb, Ee. cbn [bind].
  rewrite (elements_ok F (iter r) (meaning p) R T (length (meaning p)) f f 0%nat b e) by (assumption || lia).
  reflexivity.
Qed.

Lemma pipe_distance : exists F, forall f, (F <= f)%nat ->
  exists r, eval f p = Ok r /\ rdistance f r = Ok (Z.of_nat (length (meaning p))).
Proof using S.
  destruct (proj1 eval_good A p S) as (F & H). exists (F + length (meaning p) + 1)%nat. intros f Lf.
  destruct (H f ltac:(lia)) as (r & R & E & T & R0 & R1 & _). exists r. split; [exact E|]. unfold rdistance.
  destruct (w_copy _ _ _ _ (t_weak _ _ _ _ T) _ _ R0) as (b & Eb & Rb).
  destruct (w_copy _ _ _ _ (t_weak _ _ _ _ T) _ _ R1) as (e & Ee & Re).
  rewrite Eb, Ee. cbn [bind]. destruct (cat (iter r)) eqn:C.
  - apply (count_ok F (iter r) (meaning p) R T _ f f 0%nat); (assumption || lia).
  - apply (count_ok F (iter r) (meaning p) R T _ f f 0%nat); (assumption || lia).
  - rewrite (t_diff _ _ _ _ T _ _ _ _ C Re Rb) by lia. f_equal. lia.
Qed.

Lemma pipe_vector : exists F, forall f, (F <= f)%nat ->
  exists r, eval f p = Ok r /\ rvector f r = Ok (meaning p).
Proof using S.
  destruct pipe_list as (F & H). destruct pipe_distance as (G & H'). exists (F + G)%nat. intros f Lf.
  destruct (H f ltac:(lia)) as (r & E & L). destruct (H' f ltac:(lia)) as (r' & E' & D).
  assert (r' = r) by congruence. subst r'. exists r. split; [exact E|]. unfold rvector.
  rewrite D, L. cbn [bind]. rewrite (proj2 (Z.leb_le _ _)) by lia. reflexivity.
Qed.

Lemma pipe_fold_left : forall B (g : B -> A -> B) z, exists F, forall f, (F <= f)%nat ->
  exists r, eval f p = Ok r /\ rfold_left f g z r = Ok (fold_left g (meaning p) z).
Proof using S.
  intros B g z. destruct (proj1 eval_good A p S) as (F & H). exists (F + length (meaning p) + 1)%nat. intros f Lf.
  destruct (H f ltac:(lia)) as (r & R & E & T & R0 & R1 & _). exists r. split; [exact E|]. unfold rfold_left.
  destruct (w_copy _ _ _ _ (t_weak _ _ _ _ T) _ _ R0) as (b & Eb & Rb).
  destruct (w_copy _ _ _ _ (t_weak _ _ _ _ T) _ _ R1) as (e & Ee & Re).
  rewrite Eb, Ee. cbn [bind].
  rewrite (accumulate_ok F (iter r) (meaning p) R T B g (length (meaning p)) f f 0%nat b e) by (assumption || lia).
  reflexivity.
Qed.

Lemma pipe_fold_right : two_way p = true -> outside p = true ->
  forall B (g : B -> A -> B) z, exists F, forall f, (F <= f)%nat ->
  exists r, eval f p = Ok r /\ rfold_right f g z r = Ok (fold_right (fun a b => g b a) z (meaning p)).
Proof using S.
  intros W O B g z. destruct (proj1 eval_good A p S) as (F & H). exists (F + length (meaning p) + 1)%nat. intros f Lf.
  destruct (H f ltac:(lia)) as (r & R & E & T & R0 & R1 & C & St). exists r. split; [exact E|].
  unfold rfold_right, rreverse.
  destruct (w_copy _ _ _ _ (t_weak _ _ _ _ T) _ _ R0) as (b & Eb & Rb).
  destruct (w_copy _ _ _ _ (t_weak _ _ _ _ T) _ _ R1) as (e & Ee & Re).
  rewrite Eb, Ee. cbn [bind iter rfirst rlast].
  pose proof (reverse_tracks _ _ _ _ _ T (C W) (St O)) as T'.
  assert (Q : accumulate f f (reverse_iter (iter r)) g e b z = Ok (fold_left g (skipn 0 (rev (meaning p))) z)).
  { apply (accumulate_ok _ _ _ _ T' B g (length (meaning p)) f f 0%nat e b z);
      rewrite ?rev_length; try lia; cbn beta.
    - split; [lia|]. rewrite Nat.sub_0_r. exact Re.
    - split; [lia|]. rewrite Nat.sub_diag. exact Rb. }
  rewrite Q. cbn [skipn]. f_equal. rewrite <- fold_left_rev_right, rev_involutive. reflexivity.
Qed.

Lemma pipe_empty : exists F, forall f, (F <= f)%nat ->
  exists r, eval f p = Ok r /\ rempty r = match meaning p with [] => true | _ => false end.
Proof using S.
  destruct (proj1 eval_good A p S) as (F & H). exists F. intros f Lf.
  destruct (H f Lf) as (r & R & E & T & R0 & R1 & _). exists r. split; [exact E|]. unfold rempty.
  destruct (meaning p) as [|x l].
  - cbn [length] in R1. rewrite (w_ne _ _ _ _ (t_weak _ _ _ _ T) _ _ _ R0 R1). reflexivity.
  - rewrite (t_ne _ _ _ _ T _ _ _ _ R0 R1) by (cbn; lia). reflexivity.
Qed.

Lemma pipe_walk : exists F, forall f, (F <= f)%nat ->
  exists r, eval f p = Ok r /\
  forall w k, follow (two_way p) (length (meaning p)) 0 w = Some k ->
  exists s, walk f (iter r) w (rfirst r) = Ok s /\
    (forall a, nth_error (meaning p) k = Some a -> deref (iter r) f s = Ok a) /\
    (ne (iter r) s (rlast r) = negb (Nat.eqb k (length (meaning p)))) /\
    (forall w' j, follow (two_way p) (length (meaning p)) 0 w' = Some j ->
       exists s', walk f (iter r) w' (rfirst r) = Ok s' /\
       ne (iter r) s s' = negb (Nat.eqb k j) /\
       (cat (iter r) = RandomAccess -> lt (iter r) s s' = Nat.ltb k j)).
Proof using S.
  destruct (proj1 eval_good A p S) as (F & H). exists F. intros f Lf.
  destruct (H f Lf) as (r & R & E & T & R0 & R1 & C & _). exists r. split; [exact E|].
  assert (NE : forall j k s t, R j s -> R k t -> ne (iter r) s t = negb (Nat.eqb j k)).
  { intros j k s t X Y. destruct (Nat.eqb j k) eqn:Q.
    - apply Nat.eqb_eq in Q. subst. apply (w_ne _ _ _ _ (t_weak _ _ _ _ T) _ _ _ X Y).
    - apply Nat.eqb_neq in Q. apply (t_ne _ _ _ _ T _ _ _ _ X Y Q). }
  intros w k W. destruct (walk_ok F (iter r) (meaning p) R T (two_way p) C w 0%nat k (rfirst r) f Lf R0 W) as (s & Es & Rs).
  exists s. split; [exact Es|]. split; [|split].
  - intros a Na. apply (w_deref _ _ _ _ (t_weak _ _ _ _ T) k); assumption.
  - apply NE; assumption.
  - intros w' j W'. destruct (walk_ok F (iter r) (meaning p) R T (two_way p) C w' 0%nat j (rfirst r) f Lf R0 W') as (s' & Es' & Rs').
    exists s'. split; [exact Es'|]. split; [apply NE; assumption|].
    intro Ra. destruct (Nat.ltb k j) eqn:Q.
    + apply Nat.ltb_lt in Q. apply (w_lt _ _ _ _ (t_weak _ _ _ _ T) k j); assumption.
    + apply Nat.ltb_ge in Q. apply (t_lt _ _ _ _ T k j); assumption.
Qed.

End Pipelines.
