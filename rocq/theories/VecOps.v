(* The one-dimensional vector of VecModel: every member function does its list
   operation or throws leaving a known list; then programs with many vectors. *)
From Coq Require Import List Bool Arith Lia.
From Verif Require Import VecModel VecWorld VecSpec VecProofs VecRaw.
Import ListNotations.

Set Default Proof Using "Type".
Section Ops.
Context {V : Type}.
Variable fails nomem : nat -> bool.
Variable half : nat.
Notation mem := (@mem V).
Notation src := (@src V).
Notation throws := (throws fails).
Notation oom := (oom nomem).

Definition vgood (m : mem) (v : vec) (xs : list V) : Prop := good m (vraw v) xs /\ vsize v = length xs.
Definition vafter (m : mem) (v : vec) (m' : mem) (v' : vec) (ys : list V) : Prop :=
  after m (vraw v) m' (vraw v') ys /\ vsize v' = length ys.

Lemma after_step : forall m r m1 r1 xs m2 ys b,
  after m r m1 r1 xs -> ptr r1 = Some b -> others b m1 m2 -> length ys <= cap r1 ->
  blk m2 b = Some (somes ys ++ raws (cap r1 - length ys)) -> @after V m r m2 r1 ys.
Proof.
  intros m r m1 r1 xs m2 ys b (G & (N & O & W & D) & F) P [O2 N2] L B.
  pose proof (good_lt _ _ _ _ G P).
  split; [|split].
  - unfold good; rewrite P; repeat split; auto; lia.
  - split; [lia|]. split; [|split]; auto.
    + intros b' H1 H2. rewrite O2 by congruence. auto.
    + intros b' H1. destruct (D b' H1) as [|Hd]; auto.
      destruct (Nat.eq_dec b' b) as [->|]; auto. right. rewrite O2; auto.
  - intros b' Hb. rewrite O2 by lia. apply F; lia.
Qed.

Lemma reads_framed : forall m r m' r' s v,
  reads m s v -> outside r s -> @framed V m r m' r' -> fresh m -> reads m' s v.
Proof.
  intros m r m' r' [x|b i] v R X (N & O & W & D) F; unfold reads in *; simpl in *; auto.
  destruct (blk m b) eqn:E; [|discriminate].
  rewrite O, E; auto. apply (X b i); auto.
  intros P. destruct (W b P) as [H|H]; [apply (X b i eq_refl H)|]. rewrite F in E by auto. discriminate.
Qed.

Lemma push_back_spec : forall m v xs s x,
  vgood m v xs -> fresh m -> reads m s x -> (cap (vraw v) < S (length xs) -> outside (vraw v) s) ->
  match push_back fails nomem half v s m with
  | Ok v' m' => vafter m v m' v' (xs ++ [x])
  | Exc v' m' => vafter m v m' v' xs /\ (throws \/ oom)
  | Bad => False
  end.
Proof.
  intros m [r n] xs s x [G Hn] F R X. simpl in *. subst n. unfold push_back; cbn [vraw vsize].
  pose proof (push_prep_spec fails nomem half m r xs (S (length xs)) G F ltac:(lia)) as P.
  destruct (prepare_push_back fails nomem half r (length xs) (S (length xs)) m) as [r' m1|r' m1|]; auto.
  2:{ destruct P as (A & -> & T). split; auto. split; auto. }
  destruct P as (A & Hc & Hsame & Hnew).
  destruct (ptr r') as [b|] eqn:P'.
  2:{ destruct A as (G1 & _). unfold good in G1. rewrite P' in G1. lia. }
  assert (R1 : reads m1 s x).
  { destruct (le_lt_dec (S (length xs)) (cap r)) as [H|H].
    - destruct (Hsame H) as [-> ->]; auto.
    - apply (reads_framed m r m1 r'); auto. apply A. }
  assert (B1 : blk m1 b = Some (somes xs ++ None :: raws (cap r' - S (length xs)))).
  { destruct A as (G1 & _). unfold good in G1. rewrite P' in G1. destruct G1 as (_ & _ & ->).
    rewrite <- raws_S. do 3 f_equal. lia. }
  unfold construct. rewrite B1. unfold reads in R1. rewrite R1.
  rewrite <- (somes_len xs). rewrite nth_mid, put_mid.
  destruct (fails (tick m1)) eqn:Ef.
  - split; [|left; exists (tick m1); auto]. split; [|simpl; rewrite somes_len; auto]. simpl.
    destruct A as (G1 & Fr & F1). split; [|split]; auto.
  - split; [|simpl; rewrite somes_len, app_length; simpl; lia]. simpl.
    eapply (after_step m r m1 r' xs _ _ b); eauto.
    + split; [intros b' Hb'; simpl; destruct (Nat.eqb_spec b' b); congruence | reflexivity].
    + rewrite app_length; simpl; lia.
    + simpl. rewrite Nat.eqb_refl, somes_app, <- app_assoc. do 2 f_equal. simpl. do 2 f_equal.
      rewrite app_length, ?somes_len; simpl; lia.
Qed.

Lemma pop_back_spec : forall m v xs, vgood m v xs -> fresh m ->
  match pop_back v m with
  | Ok v' m' => xs <> [] /\ vafter m v m' v' (removelast xs)
  | Exc v' m' => xs = [] /\ v' = v /\ m' = m
  | Bad => False
  end.
Proof.
  intros m [r n] xs [G Hn] F. simpl in *. unfold pop_back; cbn [vraw vsize].
  destruct n as [|n]; [destruct xs; [auto|discriminate]|].
  destruct (exists_last (l := xs)) as (ys & y & ->); [intros ->; discriminate|].
  rewrite app_length in Hn; simpl in Hn.
  destruct (ptr r) as [b|] eqn:P.
  2:{ unfold good in G; rewrite P in G. destruct G as [_ G]. destruct ys; discriminate. }
  assert (B : blk m b = Some (somes ys ++ Some y :: raws (cap r - S (length ys)))).
  { unfold good in G; rewrite P in G. destruct G as (_ & _ & ->). rewrite somes_app, <- app_assoc, app_length. simpl.
    do 4 f_equal. lia. }
  pose proof (good_cap _ _ _ G) as Lc. rewrite app_length in Lc; simpl in Lc.
  unfold destroy1. rewrite B. replace n with (length (somes ys)) by (rewrite somes_len; lia).
  rewrite nth_mid, put_mid. cbn [andthen]. split; [destruct ys; discriminate|].
  rewrite removelast_last. split; simpl; [|apply somes_len].
  eapply (in_place m _ r (ys ++ [y]) ys b); eauto; [apply others_set|lia|].
  rewrite blk_set_eq, <- raws_S. do 3 f_equal. lia.
Qed.

Definition insert_post (m : mem) v xs off vals (o : out vec) : Prop :=
  match o with
  | Ok v' m' => vafter m v m' v' (insert_at off vals xs)
  | Exc v' m' => (throws /\ exists ys, vafter m v m' v' ys /\
        (prefix ys xs \/ (prefix ys (insert_at off vals xs) /\ off <= length ys)))
      \/ (oom /\ vsize v' = 0 /\ vraw v' = vraw v /\ after m (vraw v) m' (vraw v) xs)
  | Bad => False
  end.

Lemma insert_srcs_spec : forall m v xs off ss vals,
  vgood m v xs -> fresh m -> off <= length xs -> ss <> [] ->
  Forall2 (reads m) ss vals -> Forall (outside (vraw v)) ss ->
  insert_post m v xs off vals (insert_srcs fails nomem half v off ss m).
Proof.
  intros m [r n] xs off ss vals [G Hn] F Ho Hs R X. simpl in *. subst n. unfold insert_srcs, prepare_insert_1; cbn [vraw vsize].
  assert (Hc : 0 < length ss) by (destruct ss; [congruence|simpl; lia]).
  assert (LE : length ss = length vals) by (clear - R; induction R; simpl; auto).
  pose proof (prepare_insert_spec fails nomem half m r xs off (length ss) 1 G F Ho Hc ltac:(lia) (Nat.mod_1_r _)) as P.
  destruct (prepare_insert fails nomem half r (length xs) off (length ss) 1 m) as [[r' vc] m1|[r' vc] m1|]; auto.
  2:{ destruct P as (-> & [(T & -> & A & _)|(T & Hv & A & _)]); cbn [insert_post vsize vraw].
      - right. auto.
      - left. split; auto. rewrite Nat.mul_1_r in *. exists (firstn vc xs). split.
        + split; auto. simpl. rewrite firstn_length; lia.
        + left. exists (skipn vc xs). rewrite firstn_skipn; auto. }
  rewrite Nat.mul_1_r in P. destruct P as ((b & P' & Lb & Lc & B1) & Fr & F1).
  cbn [vraw vsize]. rewrite P'.
  assert (R1 : Forall2 (reads m1) ss vals).
  { clear - R X Fr F. induction R; constructor.
    - eapply reads_framed; eauto. inversion X; auto.
    - apply IHR. inversion X; auto. }
  assert (LF : length (firstn off xs) = off) by (rewrite firstn_length; lia).
  assert (LS : length (skipn off xs) = length xs - off) by apply skipn_length.
  pose proof (copy_spec fails ss vals b _ _ m1 R1 B1) as C. rewrite somes_len, LF in C.
  assert (FIN : forall m2 ys, others b m1 m2 -> length ys <= cap r' ->
     blk m2 b = Some (somes ys ++ raws (cap r' - length ys)) -> after m r m2 r' ys).
  { intros m2 ys [O2 N2] L B. destruct Fr as (N & O & W & D). split; [|split].
    - unfold good; rewrite P'; repeat split; auto; lia.
    - split; [lia|]. split; [|split]; auto.
      + intros b' H1 H2. rewrite O2 by congruence. auto.
      + intros b' H1. destruct (D b' H1) as [|Hd]; auto.
        destruct (Nat.eq_dec b' b) as [->|]; auto. right. rewrite O2; auto.
    - intros b' Hb. rewrite O2 by lia. apply F1; lia. }
  destruct (copy fails b off ss m1) as [d m2|d m2|]; auto.
  - destruct C as (_ & B2 & O2). unfold insert_post, vafter; cbn [vraw vsize].
    assert (LI : length (insert_at off vals xs) = length xs + length ss).
    { unfold insert_at. rewrite !app_length. lia. }
    split; [|lia]. apply FIN; auto; [lia|].
    rewrite B2. unfold insert_at. rewrite !somes_app, <- !app_assoc. do 5 f_equal. rewrite !app_length; lia.
  - destruct C as (k & Hk & Ed & B2 & O2 & Tr).
    destruct (destroy_spec (skipn off xs) b (somes (firstn off xs) ++ somes (firstn k vals) ++ raws (length ss - k))
       (raws (cap r' - (length (firstn off xs) + length ss + length (skipn off xs)))) m2 (off + length ss) (length xs + length ss)) as (m3 & E3 & B3 & O3).
    { rewrite B2, <- !app_assoc, ?LF; reflexivity. }
    { rewrite !app_length, !somes_len, raws_len, (firstn_length k); lia. }
    { rewrite !app_length, !somes_len, raws_len, (firstn_length k); lia. }
    rewrite E3; cbn [rethrow]. cbn [insert_post]. left. split; auto.
    exists (firstn off xs ++ firstn k vals). unfold vafter; cbn [vraw vsize]. split; [split|].
    + apply FIN; [eapply others_trans; eauto| |].
      * rewrite app_length, (firstn_length k); lia.
      * rewrite B3, somes_app, <- !app_assoc, <- !raws_app. do 4 f_equal.
        rewrite app_length, (firstn_length k). lia.
    + rewrite app_length, (firstn_length k). lia.
    + right. split; [|rewrite app_length; lia].
      exists (skipn k vals ++ skipn off xs). unfold insert_at. rewrite <- app_assoc. f_equal.
      rewrite app_assoc, firstn_skipn. auto.
Qed.

Lemma insert_nil : forall off (xs : list V), insert_at off [] xs = xs.
Proof. intros; unfold insert_at; simpl; apply firstn_skipn. Qed.

Lemma vafter_refl : forall m v xs, vgood m v xs -> fresh m -> vafter m v m v xs.
Proof. intros m v xs [G H] F; split; auto. apply after_refl; auto. Qed.

Lemma insert_one_spec : forall m v xs off s x,
  vgood m v xs -> fresh m -> off <= length xs -> reads m s x -> outside (vraw v) s ->
  insert_post m v xs off [x] (insert_one fails nomem half v off s m).
Proof.
  intros m v xs off s x G F Ho R X. unfold insert_one. destruct G as [G Hn]. rewrite Hn.
  destruct (Nat.ltb_spec (length xs) off); [lia|].
  apply insert_srcs_spec; auto; [split; auto|discriminate].
Qed.

Lemma Forall2_repeat : forall {A B} (P : A -> B -> Prop) a b n, P a b -> Forall2 P (repeat a n) (repeat b n).
Proof. induction n; simpl; intros; constructor; auto. Qed.
Lemma Forall_repeat : forall {A} (P : A -> Prop) a n, P a -> Forall P (repeat a n).
Proof. induction n; simpl; intros; constructor; auto. Qed.

Lemma insert_count_spec : forall m v xs off n s x,
  vgood m v xs -> fresh m -> off <= length xs -> reads m s x -> outside (vraw v) s ->
  insert_post m v xs off (repeat x n) (insert_count fails nomem half v off n s m).
Proof.
  intros m v xs off n s x G F Ho R X. unfold insert_count. pose proof G as [G' Hn]. rewrite Hn.
  destruct (Nat.ltb_spec (length xs) off); [lia|]. destruct (Nat.eqb_spec n 0) as [->|].
  - simpl. rewrite insert_nil. apply vafter_refl; auto.
  - apply insert_srcs_spec; auto. + destruct n; [lia|discriminate]. + apply Forall2_repeat; auto. + apply Forall_repeat; auto.
Qed.

Lemma insert_range_spec : forall m v xs off ss vals,
  vgood m v xs -> fresh m -> off <= length xs -> Forall2 (reads m) ss vals -> Forall (outside (vraw v)) ss ->
  insert_post m v xs off vals (insert_range fails nomem half v off ss m).
Proof.
  intros m v xs off ss vals G F Ho R X. unfold insert_range. pose proof G as [G' Hn]. rewrite Hn.
  destruct (Nat.ltb_spec (length xs) off); [lia|]. destruct ss as [|s ss].
  - inversion R; subst. simpl. rewrite insert_nil. apply vafter_refl; auto.
  - apply insert_srcs_spec; auto. discriminate.
Qed.

Lemma erase__spec : forall m v xs off n,
  vgood m v xs -> fresh m -> 0 < n -> off + n <= length xs ->
  match erase_ fails v off n m with
  | Ok v' m' => vafter m v m' v' (erase_at off n xs)
  | Exc v' m' => throws /\ exists ys, vafter m v m' v' ys /\ prefix ys (erase_at off n xs) /\ off <= length ys
  | Bad => False
  end.
Proof.
  intros m [r k] xs off n [G Hn] F H0 H1. simpl in *. subst k. unfold erase_; cbn [vraw vsize].
  pose proof (erase_spec fails m r xs off n 1 G F H0 ltac:(lia) ltac:(lia)) as E.
  destruct (raw_erase fails r (length xs) off n 1 m) as [[r' vc] m1|[r' vc] m1|]; auto.
  - destruct E as [A ->]. rewrite Nat.mul_1_r in A. split; auto. simpl.
    unfold erase_at. rewrite app_length, firstn_length, skipn_length. lia.
  - destruct E as (-> & T & V1 & V2 & A). rewrite !Nat.mul_1_r in *. split; auto.
    exists (firstn vc (erase_at off n xs)). unfold vafter; cbn [vraw vsize].
    assert (Le : length (erase_at off n xs) = length xs - n).
    { unfold erase_at. rewrite app_length, firstn_length, skipn_length. lia. }
    split; [split; [exact A|rewrite firstn_length; lia]|]. split.
    + exists (skipn vc (erase_at off n xs)). rewrite firstn_skipn; auto.
    + rewrite firstn_length. lia.
Qed.

Lemma destroy_all_spec : forall m v xs, vgood m v xs -> fresh m ->
  exists m', destroy_all v m = Ok tt m' /\ after m (vraw v) m' (vraw v) [].
Proof.
  intros m [r n] xs [G Hn] F. simpl in *. unfold destroy_all; cbn [vraw vsize].
  destruct (Nat.eqb_spec n 0).
  - subst n. destruct xs; [|simpl in *; lia]. exists m. split; auto. apply after_refl; auto.
  - destruct (ptr r) as [b|] eqn:P.
    2:{ unfold good in G; rewrite P in G. destruct G as [_ ->]. simpl in *; lia. }
    destruct (destroy_spec xs b [] (raws (cap r - length xs)) m 0 n) as (m1 & E1 & B1 & O1); auto.
    { unfold good in G; rewrite P in G. apply G. }
    exists m1. split; auto. apply (in_place m m1 r xs [] b); auto; [simpl; lia|].
    rewrite B1. simpl. rewrite <- raws_app. do 2 f_equal. pose proof (good_cap _ _ _ G). lia.
Qed.

Lemma clear_spec : forall m v xs, vgood m v xs -> fresh m ->
  exists v' m', clear v m = Ok v' m' /\ vafter m v m' v' [].
Proof.
  intros m v xs G F. unfold clear. destruct (destroy_all_spec m v xs G F) as (m' & E & A).
  rewrite E; cbn [andthen]. do 2 eexists; split; [reflexivity|]. split; auto.
Qed.

Lemma resize_spec_v : forall m v xs n s x, vgood m v xs -> fresh m -> reads m s x ->
  match resize fails nomem half v n s m with
  | Ok v' m' => vafter m v m' v' (firstn n xs ++ repeat x (n - length xs))
  | Exc v' m' => vafter m v m' v' xs /\ (throws \/ oom)
  | Bad => False
  end.
Proof.
  intros m [r k] xs n s x [G Hn] F R. simpl in *. subst k. unfold resize; cbn [vraw vsize].
  pose proof (resize_spec fails nomem half m r xs n s x G F R) as P.
  destruct (raw_resize fails nomem half r (length xs) n s m) as [r' m1|r' m1|]; auto.
  - destruct P as [A _]. split; auto. simpl. rewrite app_length, firstn_length, repeat_length. lia.
  - destruct P as (A & -> & T). split; auto. split; auto.
Qed.

Lemma assign_spec_v : forall m v xs n s x, vgood m v xs -> fresh m -> reads m s x ->
  (n <= cap (vraw v) -> outside (vraw v) s) ->
  match assign fails nomem half v n s m with
  | Ok v' m' => vafter m v m' v' (repeat x n)
  | Exc v' m' => (vafter m v m' v' xs \/ vafter m v m' v' []) /\ (throws \/ oom)
  | Bad => False
  end.
Proof.
  intros m [r k] xs n s x [G Hn] F R X. simpl in *. subst k. unfold assign; cbn [vraw vsize].
  pose proof (assign_spec fails nomem half m r xs n s x G F R X) as P.
  destruct (raw_assign fails nomem half r (length xs) n s m) as [[r' va] m1|[r' va] m1|]; auto.
  - split; auto. simpl. rewrite repeat_length; auto.
  - destruct P as (A & -> & T & _). split; auto. destruct va; [left|right]; split; auto.
Qed.

Lemma reserve_spec_v : forall m v xs n, vgood m v xs -> fresh m ->
  match reserve fails nomem v n m with
  | Ok v' m' => vafter m v m' v' xs /\ n <= cap (vraw v')
  | Exc v' m' => vafter m v m' v' xs /\ (throws \/ oom)
  | Bad => False
  end.
Proof.
  intros m [r k] xs n [G Hn] F. simpl in *. subst k. unfold reserve; cbn [vraw vsize].
  pose proof (reserve_spec fails nomem m r xs n G F) as P.
  destruct (raw_reserve fails nomem r (length xs) n m) as [r' m1|r' m1|]; auto.
  - destruct P as (A & H & _). split; auto. split; auto.
  - destruct P as (A & -> & T). split; auto. split; auto.
Qed.

Lemma shrink_spec_v : forall m v xs, vgood m v xs -> fresh m ->
  match shrink_to_fit fails nomem v m with
  | Ok v' m' => vafter m v m' v' xs /\ cap (vraw v') = length xs
  | Exc v' m' => vafter m v m' v' xs /\ (throws \/ oom)
  | Bad => False
  end.
Proof.
  intros m [r k] xs [G Hn] F. simpl in *. subst k. unfold shrink_to_fit; cbn [vraw vsize].
  pose proof (shrink_spec fails nomem m r xs G F) as P.
  destruct (raw_shrink fails nomem r (length xs) m) as [r' m1|r' m1|]; auto.
  - destruct P as (A & H). split; auto. split; auto.
  - destruct P as (A & -> & T). split; auto. split; auto.
Qed.

Lemma elems_reads : forall m v xs, vgood m v xs -> Forall2 (reads m) (elems v) xs /\ length (@elems V v) = vsize v.
Proof.
  intros m [r k] xs [G Hn]. simpl in *. subst k. unfold elems; cbn [vraw vsize]. unfold good in G.
  destruct (ptr r) as [b|].
  - destruct G as (_ & _ & B). split; [|rewrite map_length, seq_length; auto].
    apply (reads_seq m b [] xs _ B).
  - destruct G as [_ ->]. auto.
Qed.

Lemma copy_construct_spec : forall m v xs, vgood m v xs -> fresh m ->
  match copy_construct fails nomem v m with
  | Ok t m' => vafter m vec0 m' t xs /\ ptr (vraw t) = Some (next m)
  | Exc _ m' => after m (RV None 0) m' (RV None 0) [] /\ (throws \/ oom)
  | Bad => False
  end.
Proof.
  intros m v xs G F. unfold copy_construct. destruct (elems_reads m v xs G) as [R L].
  pose proof (init_range_spec fails nomem m (elems v) xs (vsize v) F R (eq_sym L)) as P.
  destruct (init_from_range fails nomem (RV None 0) (vsize v) (elems v) m) as [r m1|r m1|]; auto.
  destruct P as [A P]. split; auto. split; auto. simpl. apply G.
Qed.

Lemma free_raw_spec : forall m r, good m r [] -> @fresh V m ->
  exists m', free_raw r m = Ok tt m' /\ framed m r m' (RV None 0) /\ fresh m'.
Proof.
  intros m r G F. unfold free_raw. destruct (ptr r) as [b|] eqn:P.
  - unfold good in G; rewrite P in G. destruct G as (L & _ & B). simpl in B. rewrite Nat.sub_0_r in B.
    destruct (dealloc_spec (cap r) b m B) as (m' & E & D & O & N). exists m'. split; auto. split.
    + split; [lia|]. split; [|split].
      * intros b' H _. apply O. congruence.
      * simpl; discriminate.
      * intros b' H. right. congruence.
    + intros b' Hb. destruct (Nat.eq_dec b' b) as [->|]; auto. rewrite O by auto. apply F; lia.
  - exists m. split; auto. split; auto. split; [lia|]. split; [auto|]. split; [simpl; discriminate|]. intros b H; congruence.
Qed.

Lemma destruct_vec_spec : forall m v xs, vgood m v xs -> fresh m ->
  exists m', destruct_vec v m = Ok tt m' /\ framed m (vraw v) m' (RV None 0) /\ fresh m'.
Proof.
  intros m v xs G F. unfold destruct_vec. destruct (destroy_all_spec m v xs G F) as (m1 & E1 & (G1 & Fr1 & F1)).
  rewrite E1; cbn [andthen]. destruct (free_raw_spec m1 (vraw v) G1 F1) as (m2 & E2 & Fr2 & F2).
  exists m2. split; auto. split; auto.
  destruct Fr1 as (N1 & O1 & W1 & D1), Fr2 as (N2 & O2 & W2 & D2). split; [lia|]. split; [|split].
  - intros b H _. rewrite O2, O1; auto. simpl; discriminate.
  - simpl; discriminate.
  - intros b H. destruct (D2 b H) as [Hd|Hd]; [discriminate|auto].
Qed.

(* ---- worlds ---- *)
Definition wgood (m : mem) (vs : list vec) (ls : list (list V)) : Prop :=
  Forall2 (vgood m) vs ls /\ fresh m /\
  (forall i j v w b, nth_error vs i = Some v -> nth_error vs j = Some w ->
     ptr (vraw v) = Some b -> ptr (vraw w) = Some b -> i = j) /\
  (forall b, blk m b <> None -> exists i v, nth_error vs i = Some v /\ ptr (vraw v) = Some b).

Lemma nth_upd_eq : forall {A} (l : list A) i a x, nth_error l i = Some x -> nth_error (upd l i a) i = Some a.
Proof. induction l; destruct i; simpl; intros; try discriminate; auto. eauto. Qed.
Lemma nth_upd_ne : forall {A} (l : list A) i j a, i <> j -> nth_error (upd l i a) j = nth_error l j.
Proof. induction l; destruct i, j; simpl; intros; auto; try congruence. Qed.
Lemma upd_same : forall {A} (l : list A) i a, nth_error l i = Some a -> upd l i a = l.
Proof. induction l; destruct i; simpl; intros; try discriminate; auto. congruence. f_equal; auto. Qed.
Lemma upd_length : forall {A} (l : list A) i a, length (upd l i a) = length l.
Proof. induction l; destruct i; simpl; auto. Qed.

Lemma Forall2_nth : forall {A B} (P : A -> B -> Prop) l1 l2 i a, Forall2 P l1 l2 -> nth_error l1 i = Some a ->
  exists b, nth_error l2 i = Some b /\ P a b.
Proof.
  intros A B P l1 l2 i a F; revert i. induction F; destruct i; simpl; intros; try discriminate; eauto.
  injection H0 as ->. eauto.
Qed.
Lemma Forall2_nth_r : forall {A B} (P : A -> B -> Prop) l1 l2 i b, Forall2 P l1 l2 -> nth_error l2 i = Some b ->
  exists a, nth_error l1 i = Some a /\ P a b.
Proof.
  intros A B P l1 l2 i a F; revert i. induction F; destruct i; simpl; intros; try discriminate; eauto.
  injection H0 as ->. eauto.
Qed.
Lemma Forall2_of_nth : forall {A B} (P : A -> B -> Prop) l1 l2, length l1 = length l2 ->
  (forall i a b, nth_error l1 i = Some a -> nth_error l2 i = Some b -> P a b) -> Forall2 P l1 l2.
Proof.
  induction l1; destruct l2; simpl; intros; try discriminate; constructor.
  - apply (H0 0); auto. - apply IHl1; [lia|]. intros i; apply (H0 (S i)).
Qed.
Lemma Forall2_len : forall {A B} (P : A -> B -> Prop) l1 l2, Forall2 P l1 l2 -> length l1 = length l2.
Proof. intros A B P l1 l2 F; induction F; simpl; auto. Qed.

(* one vector changes *)
Lemma world_upd : forall m vs ls i v xs m' v' ys,
  wgood m vs ls -> nth_error vs i = Some v -> nth_error ls i = Some xs ->
  vafter m v m' v' ys -> wgood m' (upd vs i v') (upd ls i ys).
Proof.
  intros m vs ls i v xs m' v' ys (H2 & F & U & Ow) Hv Hl [(G' & (N & O & W & D) & F') Hs].
  pose proof (Forall2_len _ _ _ H2) as Len.
  assert (KEEP : forall j w b, j <> i -> nth_error vs j = Some w -> ptr (vraw w) = Some b ->
            ptr (vraw v) <> Some b /\ ptr (vraw v') <> Some b /\ blk m' b = blk m b).
  { intros j w b Hj Hw Pw.
    assert (P1 : ptr (vraw v) <> Some b). { intros P. apply Hj. eapply U; eauto. }
    assert (P2 : ptr (vraw v') <> Some b).
    { intros P. destruct (W b P) as [|Hb]; [contradiction|].
      destruct (Forall2_nth _ _ _ _ _ H2 Hw) as (zs & _ & [Gw _]).
      pose proof (good_lt _ _ _ _ Gw Pw). lia. }
    auto. }
  split; [|split; [|split]]; auto.
  - apply Forall2_of_nth; [rewrite !upd_length; auto|].
    intros j w zs Hw Hz. destruct (Nat.eq_dec i j) as [->|Hj].
    + rewrite (nth_upd_eq _ _ _ _ Hv) in Hw. rewrite (nth_upd_eq _ _ _ _ Hl) in Hz.
      injection Hw as <-. injection Hz as <-. split; auto.
    + rewrite nth_upd_ne in Hw by auto; rewrite nth_upd_ne in Hz by auto.
      destruct (Forall2_nth _ _ _ _ _ H2 Hw) as (zs' & Hz' & [Gw Sw]). rewrite Hz in Hz'. injection Hz' as <-.
      split; auto. apply (good_same m); auto. intros b Hb. eapply KEEP; eauto.
  - intros j k w u b Hw Hu Pw Pu.
    destruct (Nat.eq_dec j i) as [->|Hj], (Nat.eq_dec k i) as [->|Hk]; auto; try congruence.
    + rewrite (nth_upd_eq _ _ _ _ Hv) in Hw. injection Hw as <-. rewrite nth_upd_ne in Hu by auto.
      destruct (KEEP k u b ltac:(auto) Hu Pu) as (_ & Hc & _). contradiction.
    + rewrite (nth_upd_eq _ _ _ _ Hv) in Hu. injection Hu as <-. rewrite nth_upd_ne in Hw by auto.
      destruct (KEEP j w b ltac:(auto) Hw Pw) as (_ & Hc & _). contradiction.
    + rewrite nth_upd_ne in Hw by auto; rewrite nth_upd_ne in Hu by auto. eapply U; eauto.
  - intros b Hb.
    assert (DEC : ptr (vraw v') = Some b \/ ptr (vraw v') <> Some b).
    { destruct (ptr (vraw v')) as [c|]; [destruct (Nat.eq_dec c b); [left|right]; congruence|right; discriminate]. }
    destruct DEC as [Pb|Pb].
    + exists i, v'. split; auto. eapply nth_upd_eq; eauto.
    + assert (DEC : ptr (vraw v) = Some b \/ ptr (vraw v) <> Some b).
      { destruct (ptr (vraw v)) as [c|]; [destruct (Nat.eq_dec c b); [left|right]; congruence|right; discriminate]. }
      destruct DEC as [Pv|Pv]; [destruct (D b Pv); [contradiction|congruence]|].
      rewrite O in Hb by auto. destruct (Ow b Hb) as (j & w & Hw & Pw). exists j, w. split; auto.
      rewrite nth_upd_ne; auto. intros ->. congruence.
Qed.

(* a new vector *)
Lemma world_add : forall m vs ls m' v' ys,
  wgood m vs ls -> vafter m vec0 m' v' ys -> wgood m' (vs ++ [v']) (ls ++ [ys]).
Proof.
  intros m vs ls m' v' ys W0 A.
  assert (W1 : wgood m (vs ++ [vec0]) (ls ++ [[]])).
  { destruct W0 as (H2 & F & U & Ow). split; [|split; [|split]]; auto.
    - apply Forall2_app; auto. constructor; [|constructor]. split; [|auto]. split; auto.
    - intros i j v w b Hv Hw Pv Pw.
      assert (X : forall k u, nth_error (vs ++ [vec0]) k = Some u -> ptr (vraw u) = Some b -> nth_error vs k = Some u).
      { intros k u Hk Pu. destruct (Nat.lt_ge_cases k (length vs)).
        - rewrite nth_error_app1 in Hk; auto.
        - rewrite nth_error_app2 in Hk by auto. destruct (k - length vs) as [|[|]]; simpl in Hk; try discriminate.
          injection Hk as <-. discriminate. }
      eapply U; eauto.
    - intros b Hb. destruct (Ow b Hb) as (i & v & Hv & Pv). exists i, v. split; auto.
      rewrite nth_error_app1; auto. apply nth_error_Some. congruence. }
  assert (Len : length vs = length ls) by (eapply Forall2_len; apply W0).
  pose proof (world_upd m (vs ++ [vec0]) (ls ++ [[]]) (length vs) vec0 [] m' v' ys W1) as R.
  assert (X : forall {T} (l : list T) a c n, n = length l -> upd (l ++ [a]) n c = l ++ [c]).
  { intros T l; induction l; intros a0 c n ->; simpl; auto. f_equal; auto. }
  rewrite !X in R by auto. apply R; auto.
  - rewrite nth_error_app2, Nat.sub_diag; auto.
  - rewrite Len, nth_error_app2, Nat.sub_diag; auto.
Qed.

(* nothing but the clock changed *)
Lemma world_same : forall m vs ls m', wgood m vs ls ->
  after m (RV None 0) m' (RV None 0) [] -> wgood m' vs ls.
Proof.
  intros m vs ls m' (H2 & F & U & Ow) (_ & (N & O & _ & _) & F').
  assert (K : forall b, blk m' b = blk m b) by (intros b; apply O; discriminate).
  split; [|split; [|split]]; auto.
  - apply (Forall2_impl (vgood m)); auto. intros v xs [G S]. split; auto. apply (good_same m); auto.
  - intros b Hb. rewrite K in Hb. auto.
Qed.

Lemma resolve_reads : forall m vs ls a x, wgood m vs ls -> value ls a = Some x ->
  exists s, resolve vs a = Some s /\ reads m s x /\
    (forall i v, nth_error vs i = Some v -> foreign i a -> outside (vraw v) s).
Proof.
  intros m vs ls [v|j k] x W Hx; simpl in *.
  - injection Hx as ->. exists (Ext x). split; auto. split; [reflexivity|]. intros i v _ _ b i' H; discriminate.
  - destruct W as (H2 & F & U & Ow).
    destruct (nth_error ls j) as [xs|] eqn:Ej; [|discriminate].
    destruct (Forall2_nth_r _ _ _ _ _ H2 Ej) as (w & Hw & [G S]). rewrite Hw.
    assert (Lk : k < length xs) by (apply nth_error_Some; congruence).
    rewrite S. destruct (Nat.ltb_spec k (length xs)); [|lia].
    unfold good in G. destruct (ptr (vraw w)) as [b|] eqn:P.
    2:{ destruct G as [_ ->]. simpl in Lk; lia. }
    exists (Ref b k). split; auto. split.
    + unfold reads; simpl. destruct G as (_ & _ & ->). rewrite nth_error_app1 by (rewrite somes_len; auto).
      unfold somes. rewrite nth_error_map, Hx. auto.
    + intros i v Hv Hf b' i' E Pv. injection E as <- <-. apply Hf. eapply U; eauto.
Qed.

Lemma resolve_all_reads : forall m vs ls l xs, wgood m vs ls -> values ls l = Some xs ->
  exists ss, resolve_all vs l = Some ss /\ Forall2 (reads m) ss xs /\ length ss = length l /\
    (forall i v, nth_error vs i = Some v -> Forall (foreign i) l -> Forall (outside (vraw v)) ss).
Proof.
  intros m vs ls l; induction l as [|a l IH]; intros xs W Hx; simpl in *.
  - injection Hx as <-. exists []. repeat split; auto.
  - destruct (value ls a) as [x|] eqn:Ea; [|discriminate].
    destruct (values ls l) as [xs'|]; [|discriminate]. injection Hx as <-.
    destruct (resolve_reads m vs ls a x W Ea) as (s & Es & Rs & Xs).
    destruct (IH xs' W eq_refl) as (ss & Ess & Rss & Ls & Xss).
    rewrite Es, Ess. exists (s :: ss). split; auto. split; [constructor; auto|]. split; [simpl; auto|].
    intros i v Hv Hf. inversion Hf; subst. constructor; eauto.
Qed.

(* the vectors are permuted *)
Lemma world_perm : forall m vs ls vs' ls' (p : nat -> nat),
  wgood m vs ls -> length vs' = length ls' -> (forall k, p (p k) = k) ->
  (forall k, nth_error vs' k = nth_error vs (p k)) -> (forall k, nth_error ls' k = nth_error ls (p k)) ->
  wgood m vs' ls'.
Proof.
  intros m vs ls vs' ls' p (H2 & F & U & Ow) HL Hp Ev El. split; [|split; [|split]]; auto.
  - apply Forall2_of_nth; auto. intros i v xs Hv Hx. rewrite Ev in Hv. rewrite El in Hx.
    destruct (Forall2_nth _ _ _ _ _ H2 Hv) as (ys & Hy & G). rewrite Hx in Hy. injection Hy as <-. auto.
  - intros i j v w b Hv Hw Pv Pw. rewrite Ev in Hv. rewrite Ev in Hw.
    rewrite <- (Hp i), <- (Hp j). f_equal. eapply U; eauto.
  - intros b Hb. destruct (Ow b Hb) as (i & v & Hv & Pv). exists (p i), v. rewrite Ev, Hp. auto.
Qed.

Definition swp (i j k : nat) : nat := if Nat.eqb k i then j else if Nat.eqb k j then i else k.
Lemma swp_swp : forall i j k, swp i j (swp i j k) = k.
Proof.
  intros; unfold swp. destruct (Nat.eqb_spec k i) as [->|].
  - destruct (Nat.eqb_spec j i) as [->|]; auto. rewrite Nat.eqb_refl; auto.
  - destruct (Nat.eqb_spec k j) as [->|].
    + rewrite Nat.eqb_refl; auto.
    + destruct (Nat.eqb_spec k i); [congruence|]. destruct (Nat.eqb_spec k j); congruence.
Qed.
Lemma swp_upd : forall {A} (l : list A) i j a b k, nth_error l i = Some a -> nth_error l j = Some b ->
  nth_error (upd (upd l i b) j a) k = nth_error l (swp i j k).
Proof.
  intros A l i j a b k Ha Hb. unfold swp.
  assert (L : forall n x, nth_error l n = Some x -> n < length l) by (intros n x H; apply nth_error_Some; congruence).
  destruct (Nat.eqb_spec k i) as [->|Hi].
  - destruct (Nat.eq_dec j i) as [->|].
    + assert (X : exists y, nth_error (upd l i b) i = Some y) by (eexists; eapply nth_upd_eq; eauto).
      destruct X as [y X]. rewrite (nth_upd_eq _ _ _ _ X). congruence.
    + rewrite nth_upd_ne by auto. rewrite (nth_upd_eq _ _ _ _ Ha). auto.
  - destruct (Nat.eqb_spec k j) as [->|Hj].
    + rewrite (nth_upd_eq _ _ _ b) by (rewrite nth_upd_ne; auto). auto.
    + rewrite !nth_upd_ne by auto. auto.
Qed.

Lemma world_swap : forall m vs ls i j v w xs ys,
  wgood m vs ls -> nth_error vs i = Some v -> nth_error vs j = Some w ->
  nth_error ls i = Some xs -> nth_error ls j = Some ys ->
  wgood m (upd (upd vs i w) j v) (upd (upd ls i ys) j xs).
Proof.
  intros m vs ls i j v w xs ys W Hv Hw Hx Hy.
  apply (world_perm m vs ls _ _ (swp i j)); auto.
  - rewrite !upd_length. eapply Forall2_len; apply W.
  - apply swp_swp.
  - intros k; apply swp_upd; auto.
  - intros k; apply swp_upd; auto.
Qed.

Lemma upd_app_last : forall {A} (l : list A) a c n, n = length l -> upd (l ++ [a]) n c = l ++ [c].
Proof. intros A l; induction l; intros a0 c n ->; simpl; auto. f_equal; auto. Qed.
Lemma upd_app1 : forall {A} (l t : list A) i c, i < length l -> upd (l ++ t) i c = upd l i c ++ t.
Proof. induction l; destruct i; simpl; intros; auto; try lia. f_equal; apply IHl; lia. Qed.

Lemma world_move_new : forall m vs ls j v xs,
  wgood m vs ls -> nth_error vs j = Some v -> nth_error ls j = Some xs ->
  wgood m (upd vs j vec0 ++ [v]) (upd ls j [] ++ [xs]).
Proof.
  intros m vs ls j v xs W Hv Hx.
  assert (W1 : wgood m (vs ++ [vec0]) (ls ++ [[]])).
  { apply (world_add m); auto. apply vafter_refl; [split; [split|]; auto|apply W]. }
  assert (Len : length vs = length ls) by (eapply Forall2_len; apply W).
  assert (Lj : j < length vs) by (apply nth_error_Some; congruence).
  pose proof (world_swap m _ _ j (length vs) v vec0 xs [] W1) as S.
  rewrite (upd_app1 vs), (upd_app1 ls) in S by lia.
  rewrite (upd_app_last (upd vs j vec0)), (upd_app_last (upd ls j [])) in S by (rewrite upd_length; lia). apply S.
  - rewrite nth_error_app1; auto.
  - rewrite nth_error_app2, Nat.sub_diag; auto.
  - rewrite nth_error_app1 by lia; auto.
  - rewrite Len, nth_error_app2, Nat.sub_diag; auto.
Qed.

Lemma copy_assign_spec : forall m v w xs ys, vgood m v xs -> vgood m w ys -> fresh m ->
  match copy_assign fails nomem v w m with
  | Ok v' m' => vafter m v m' v' ys
  | Exc v' m' => vafter m v m' v' xs /\ (throws \/ oom)
  | Bad => False
  end.
Proof.
  intros m v w xs ys G Gw F. unfold copy_assign.
  pose proof (copy_construct_spec m w ys Gw F) as P.
  destruct (copy_construct fails nomem w m) as [t m1|t m1|]; auto.
  - destruct P as [[(G1 & (N1 & O1 & W1 & D1) & F1) S1] Pt].
    assert (NP : ptr (vraw v) <> Some (next m)). { intros H. pose proof (good_lt _ _ _ _ (proj1 G) H). lia. }
    assert (Gv : vgood m1 v xs).
    { split; [|apply G]. apply (good_same m); [apply G|auto|]. intros b Hb. apply O1; [discriminate|]. congruence. }
    destruct (destruct_vec_spec m1 v xs Gv F1) as (m2 & E2 & (N2 & O2 & W2 & D2) & F2).
    rewrite E2; cbn [andthen]. split; auto. split; [|split]; auto.
    + apply (good_same m1); auto. intros b Hb. apply O2; [congruence|discriminate].
    + split; [lia|]. split; [|split].
      * intros b H1 H2. rewrite O2 by (auto; discriminate). apply O1; [discriminate|auto].
      * intros b Hb. right. rewrite Pt in Hb. injection Hb as <-. lia.
      * intros b Hb. right. destruct (D2 b Hb); [discriminate|auto].
  - destruct P as [(G1 & (N1 & O1 & W1 & D1) & F1) T]. split; auto. split; [|apply G].
    apply after_same; auto; [apply G|]. intros b; apply O1; discriminate.
Qed.

Lemma move_assign_spec : forall m v w xs, vgood m v xs -> fresh m ->
  exists m', move_assign v w m = Ok (w, vec0) m' /\ vafter m v m' vec0 [].
Proof.
  intros m v w xs G F. unfold move_assign.
  destruct (destroy_all_spec m v xs G F) as (m1 & E1 & (G1 & (N1 & O1 & W1 & D1) & F1)).
  rewrite E1; cbn [andthen]. destruct (free_raw_spec m1 (vraw v) G1 F1) as (m2 & E2 & (N2 & O2 & W2 & D2) & F2).
  rewrite E2; cbn [andthen]. exists m2. split; auto. split; auto. split; [split; auto|]. split; auto.
  split; [lia|]. split; [|split].
  - intros b H _. rewrite O2, O1; auto. simpl; discriminate.
  - simpl; discriminate.
  - intros b H. destruct (D2 b H) as [Hd|Hd]; [discriminate|auto].
Qed.

Lemma concat_repeat1 : forall n (x : V), concat (repeat [x] n) = repeat x n.
Proof. induction n; simpl; intros; f_equal; auto. Qed.
Lemma get_nth : forall (ls : list (list V)) i xs, nth_error ls i = Some xs -> nth i ls [] = xs.
Proof. intros; apply nth_error_nth; auto. Qed.

Definition step_ok (op : vop) (ls : list (list V)) (threw : bool) (ls' : list (list V)) : Prop :=
  if threw then (result op ls = None /\ ls' = ls) \/ ((throws \/ oom) /\ damaged op ls ls')
  else result op ls = Some ls'.

Definition exec_post (m : mem) (op : vop) (ls : list (list V)) (o : out (list vec)) : Prop :=
  match o with
  | Ok vs' m' => exists ls', wgood m' vs' ls' /\ result op ls = Some ls'
  | Exc vs' m' => exists ls', wgood m' vs' ls' /\ step_ok op ls true ls'
  | Bad => False
  end.

Lemma on_post : forall m vs ls i v xs (f : vec -> mem -> out vec) op,
  wgood m vs ls -> nth_error vs i = Some v -> nth_error ls i = Some xs ->
  match f v m with
  | Ok v' m' => exists ys, vafter m v m' v' ys /\ result op ls = Some (upd ls i ys)
  | Exc v' m' => exists ys, vafter m v m' v' ys /\ step_ok op ls true (upd ls i ys)
  | Bad => False
  end -> exec_post m op ls (on vs i m f).
Proof.
  intros m vs ls i v xs f op W Hv Hl H. unfold on. rewrite Hv.
  destruct (f v m) as [v' m'|v' m'|]; auto.
  - destruct H as (ys & A & R). exists (upd ls i ys). split; auto. eapply world_upd; eauto.
  - destruct H as (ys & A & R). exists (upd ls i ys). split; auto. eapply world_upd; eauto.
Qed.

Lemma exc_same : forall op ls i xs, nth_error ls i = Some xs -> throws \/ oom -> step_ok op ls true (upd ls i xs).
Proof. intros. right. split; auto. left. apply upd_same; auto. Qed.

Lemma init_value_range : forall (m : mem) r n s,
  init_from_value fails nomem r n s m = init_from_range fails nomem r n (repeat s n) m.
Proof.
  intros. unfold init_from_value, init_from_range, fill. destruct (allocate nomem n m); auto.
  rewrite Nat.sub_0_r. destruct (Nat.ltb_spec n 0); [lia|]. auto.
Qed.

Theorem exec_spec : forall op m vs ls,
  wgood m vs ls -> legal ls op -> (inserts op -> forall t, nomem t = false) ->
  exec_post m op ls (exec fails nomem half op vs m).
Proof.
  intros op m vs ls W L NI.
  assert (GET : forall i xs, nth_error ls i = Some xs -> exists v, nth_error vs i = Some v /\ vgood m v xs).
  { intros i xs H. destruct (Forall2_nth_r _ _ _ _ _ (proj1 W) H) as (v & Hv & G); eauto. }
  assert (FM : fresh m) by apply W.
  assert (INS : inserts op -> forall i xs v off vals o, nth_error ls i = Some xs -> nth_error vs i = Some v ->
     result op ls = Some (upd ls i (insert_at off vals xs)) ->
     (match op with InsertOne _ o _ | InsertCount _ o _ _ | InsertRange _ o _ => o = off | _ => False end) ->
     insert_post m v xs off vals o ->
     match o with
     | Ok v' m' => exists ys, vafter m v m' v' ys /\ result op ls = Some (upd ls i ys)
     | Exc v' m' => exists ys, vafter m v m' v' ys /\ step_ok op ls true (upd ls i ys)
     | Bad => False
     end).
  { intros Hi i xs v off vals o Hx Hv Hr Ho P. destruct o as [v' m'|v' m'|]; auto.
    - exists (insert_at off vals xs). auto.
    - destruct P as [(T & ys & A & Hy)|((t & Ht) & _)]; [|rewrite NI in Ht; [discriminate|auto]].
      exists ys. split; auto. right. split; [auto|]. right.
      exists i, xs, (insert_at off vals xs), ys. repeat split; auto.
      destruct op; try contradiction; subst; auto. }
  inversion L; subst; clear L; cbn [exec].
  - exists (ls ++ [[]]). split; auto. apply (world_add m); auto. apply vafter_refl; [split; [split|]; auto|auto].
  - (* Make *)
    destruct (resolve_reads m vs ls a v W H) as (s & Es & R & _). unfold with_src; rewrite Es.
    rewrite init_value_range.
    pose proof (init_range_spec fails nomem m (repeat s n) (repeat v n) n FM (Forall2_repeat _ _ _ n R) (eq_sym (repeat_length s n))) as P.
    unfold adding. destruct (init_from_range fails nomem (RV None 0) n (repeat s n) m) as [r m'|r m'|]; auto.
    + destruct P as [A _]. exists (ls ++ [repeat v n]). split.
      * apply (world_add m); auto. split; auto. simpl. rewrite repeat_length; auto.
      * simpl. rewrite H, concat_repeat1; auto.
    + destruct P as [A T]. exists ls. split; [apply (world_same m); auto|]. right. split; auto. left; auto.
  - destruct (resolve_all_reads m vs ls l vs0 W H) as (ss & Es & R & Ls & _). unfold with_srcs; rewrite Es.
    pose proof (init_range_spec fails nomem m ss vs0 (length l) FM R (eq_sym Ls)) as P.
    unfold adding. destruct (init_from_range fails nomem (RV None 0) (length l) ss m) as [r m'|r m'|]; auto.
    + destruct P as [A _]. exists (ls ++ [vs0]). split.
      * apply (world_add m); auto. split; auto. simpl. rewrite <- Ls. eapply Forall2_len; eauto.
      * simpl. rewrite H; auto.
    + destruct P as [A T]. exists ls. split; [apply (world_same m); auto|]. right. split; auto. left; auto.
  - destruct (GET _ _ H) as (v & Hv & G). rewrite Hv.
    pose proof (copy_construct_spec m v xs G FM) as P. destruct (copy_construct fails nomem v m) as [t m'|t m'|]; auto.
    + exists (ls ++ [xs]). split; [apply (world_add m); auto; apply P|]. simpl. rewrite (get_nth _ _ _ H); auto.
    + exists ls. split; [apply (world_same m); auto; apply P|]. right. split; [apply P|]. left; auto.
  - destruct (GET _ _ H) as (v & Hv & G). rewrite Hv. exists (upd ls j [] ++ [xs]). split; [|simpl; rewrite (get_nth _ _ _ H); auto].
    apply world_move_new; auto.
  - destruct (GET _ _ H) as (v' & Hv & G). destruct (resolve_reads m vs ls a v W H0) as (s & Es & R & X).
    unfold with_src; rewrite Es. apply (on_post m vs ls i v' xs); auto.
    pose proof (push_back_spec m v' xs s v G FM R (fun _ => X i v' Hv H1)) as P.
    destruct (push_back fails nomem half v' s m); auto.
    + eexists; split; [exact P|]. simpl. rewrite (get_nth _ _ _ H), H0; auto.
    + exists xs. split; [apply P|]. apply exc_same; auto; apply P.
  - destruct (GET _ _ H) as (v' & Hv & G). apply (on_post m vs ls i v' xs); auto.
    pose proof (pop_back_spec m v' xs G FM) as P. destruct (pop_back v' m); auto.
    + destruct P as [Hne A]. eexists; split; [exact A|]. simpl. rewrite (get_nth _ _ _ H). destruct xs; [congruence|auto].
    + destruct P as (-> & -> & ->). exists []. split; [apply vafter_refl; auto|]. left. simpl. rewrite (get_nth _ _ _ H).
      split; auto. apply upd_same; auto.
  - destruct (GET _ _ H) as (v' & Hv & G). destruct (resolve_reads m vs ls a v W H1) as (s & Es & R & X).
    unfold with_src; rewrite Es. apply (on_post m vs ls i v' xs); auto.
    eapply (INS I i xs v' off [v]); eauto.
    + simpl. rewrite (get_nth _ _ _ H), H1; auto.
    + apply insert_one_spec; auto. apply (X i); auto.
  - destruct (GET _ _ H) as (v' & Hv & G). destruct (resolve_reads m vs ls a v W H1) as (s & Es & R & X).
    unfold with_src; rewrite Es. apply (on_post m vs ls i v' xs); auto.
    eapply (INS I i xs v' off (repeat v n)); eauto.
    + simpl. rewrite (get_nth _ _ _ H), H1, concat_repeat1; auto.
    + apply insert_count_spec; auto. apply (X i); auto.
  - destruct (GET _ _ H) as (v' & Hv & G). destruct (resolve_all_reads m vs ls l vs0 W H1) as (ss & Es & R & _ & X).
    unfold with_srcs; rewrite Es. apply (on_post m vs ls i v' xs); auto.
    eapply (INS I i xs v' off vs0); eauto.
    + simpl. rewrite (get_nth _ _ _ H), H1; auto.
    + apply insert_range_spec; auto. apply (X i); auto.
  - destruct (GET _ _ H) as (v' & Hv & G). apply (on_post m vs ls i v' xs); auto.
    unfold erase_one. rewrite (proj2 G). destruct (Nat.ltb_spec (length xs) off); [destruct H0 as [|[-> ->]]; simpl in *; lia|].
    destruct (Nat.eqb_spec (length xs) 0) as [E0|E0].
    + destruct xs; [|discriminate]. exists []. split; [apply vafter_refl; auto|]. left. simpl. rewrite (get_nth _ _ _ H).
      split; auto. apply upd_same; auto.
    + destruct H0 as [H0|[-> ->]]; [|simpl in *; lia].
      pose proof (erase__spec m v' xs off 1 G FM ltac:(lia) ltac:(lia)) as P.
      assert (RS : result (EraseOne i off) ls = Some (upd ls i (erase_at off 1 xs))).
      { simpl. rewrite (get_nth _ _ _ H). destruct xs; [simpl in *; lia|auto]. }
      destruct (erase_ fails v' off 1 m); auto.
      * eexists; split; [exact P|exact RS].
      * destruct P as (T & ys & A & Hp & Hl). exists ys. split; auto. right. split; auto. right.
        exists i, xs, (erase_at off 1 xs), ys. auto 10.
  - destruct (GET _ _ H) as (v' & Hv & G). apply (on_post m vs ls i v' xs); auto.
    unfold erase_range. rewrite (proj2 G). destruct (Nat.ltb_spec (length xs) a); [lia|]. destruct (Nat.ltb_spec (length xs) b); [lia|].
    cbn [orb]. destruct (Nat.ltb_spec b a) as [Hab|Hab].
    + exists xs. split; [apply vafter_refl; auto|]. left. split; [|apply upd_same; auto].
      simpl. destruct (Nat.ltb_spec b a); [auto|lia].
    + assert (RS : result (EraseRange i a b) ls = Some (upd ls i (erase_at a (b - a) xs))).
      { simpl. rewrite (get_nth _ _ _ H). destruct (Nat.ltb_spec b a); [lia|auto]. }
      destruct (Nat.eqb_spec a b) as [->|Hne].
      * exists xs. split; [apply vafter_refl; auto|]. rewrite RS. do 2 f_equal. unfold erase_at.
        rewrite Nat.sub_diag, Nat.add_0_r. apply firstn_skipn.
      * destruct (Nat.ltb_spec (length xs) (b - a)); [lia|].
        pose proof (erase__spec m v' xs a (b - a) G FM ltac:(lia) ltac:(lia)) as P.
        destruct (erase_ fails v' a (b - a) m); auto.
        -- eexists; split; [exact P|exact RS].
        -- destruct P as (T & ys & A & Hp & Hl). exists ys. split; auto. right. split; auto. right.
           exists i, xs, (erase_at a (b - a) xs), ys. auto 10.
  - destruct (GET _ _ H) as (v' & Hv & G). destruct (resolve_reads m vs ls a v W H0) as (s & Es & R & _).
    unfold with_src; rewrite Es. apply (on_post m vs ls i v' xs); auto.
    pose proof (resize_spec_v m v' xs n s v G FM R) as P. destruct (resize fails nomem half v' n s m); auto.
    + eexists; split; [exact P|]. simpl. rewrite (get_nth _ _ _ H), H0, concat_repeat1; auto.
    + exists xs. split; [apply P|]. apply exc_same; auto; apply P.
  - destruct (GET _ _ H) as (v' & Hv & G). destruct (resolve_reads m vs ls a v W H0) as (s & Es & R & X).
    unfold with_src; rewrite Es. apply (on_post m vs ls i v' xs); auto.
    pose proof (assign_spec_v m v' xs n s v G FM R (fun _ => X i v' Hv H1)) as P.
    assert (RS : result (Assign i n a) ls = Some (upd ls i (repeat v n))) by (simpl; rewrite H0, concat_repeat1; auto).
    destruct (assign fails nomem half v' n s m); auto.
    + eexists; split; [exact P|exact RS].
    + destruct P as [[P|P] T]; eexists; (split; [exact P|]); [apply exc_same; auto|].
      right. split; auto. right. exists i, xs, (repeat v n), []. auto.
  - destruct (GET _ _ H) as (v' & Hv & G). apply (on_post m vs ls i v' xs); auto.
    pose proof (reserve_spec_v m v' xs n G FM) as P. destruct (reserve fails nomem v' n m); auto.
    + exists xs. split; [apply P|]. simpl. rewrite upd_same; auto.
    + exists xs. split; [apply P|]. apply exc_same; auto; apply P.
  - destruct (GET _ _ H) as (v' & Hv & G). apply (on_post m vs ls i v' xs); auto.
    pose proof (shrink_spec_v m v' xs G FM) as P. destruct (shrink_to_fit fails nomem v' m); auto.
    + exists xs. split; [apply P|]. simpl. rewrite upd_same; auto.
    + exists xs. split; [apply P|]. apply exc_same; auto; apply P.
  - destruct (GET _ _ H) as (v' & Hv & G). apply (on_post m vs ls i v' xs); auto.
    destruct (clear_spec m v' xs G FM) as (v2 & m2 & E & A). rewrite E. eexists; split; [exact A|auto].
  - destruct (GET _ _ H) as (v & Hv & G). destruct (GET _ _ H0) as (w & Hw & Gw). rewrite Hw.
    apply (on_post m vs ls i v xs); auto.
    pose proof (copy_assign_spec m v w xs ys G Gw FM) as P. destruct (copy_assign fails nomem v w m); auto.
    + exists ys. split; auto. simpl. rewrite (get_nth _ _ _ H0); auto.
    + exists xs. split; [apply P|]. apply exc_same; auto; apply P.
  - destruct (GET _ _ H) as (v & Hv & G). destruct (GET _ _ H0) as (w & Hw & Gw). rewrite Hv, Hw.
    destruct (move_assign_spec m v w xs G FM) as (m' & E & A). rewrite E.
    exists (upd (upd ls i ys) j []). split; [|simpl; rewrite (get_nth _ _ _ H0); auto].
    pose proof (world_upd m vs ls i v xs m' vec0 [] W Hv H A) as W1.
    destruct (Nat.eq_dec i j) as [->|Hij].
    + assert (UU : forall {T} (l : list T) n a b, upd (upd l n a) n b = upd l n b).
      { intros T l; induction l; destruct n; simpl; intros; auto. f_equal; auto. }
      rewrite (UU _ vs), (UU _ ls). auto.
    + pose proof (world_swap m' _ _ i j vec0 w [] ys W1) as S.
      assert (UU : forall {T} (l : list T) n a b, upd (upd l n a) n b = upd l n b).
      { intros T l; induction l; destruct n; simpl; intros; auto. f_equal; auto. }
      rewrite (UU _ vs), (UU _ ls) in S. apply S.
      * eapply nth_upd_eq; eauto. * rewrite nth_upd_ne; auto. * eapply nth_upd_eq; eauto. * rewrite nth_upd_ne; auto.
  - destruct (GET _ _ H) as (v & Hv & G). destruct (GET _ _ H0) as (w & Hw & Gw). rewrite Hv, Hw.
    exists (upd (upd ls i ys) j xs). split; [apply world_swap; auto|].
    simpl. rewrite (get_nth _ _ _ H0), (get_nth _ _ _ H); auto.
Qed.
End Ops.
