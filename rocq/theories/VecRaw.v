(* raw_vector of VecModel: what each of its functions does to a block holding a
   known list of elements, when nothing throws and when something does. *)
From Coq Require Import List Bool Arith Lia.
From Verif Require Import VecModel VecProofs.
Import ListNotations.

Set Default Proof Using "Type".
Section Raw.
Context {V : Type}.
Variable fails nomem : nat -> bool.
Variable half : nat.

Notation mem := (@mem V).
Notation src := (@src V).
Notation throws := (throws fails).
Notation oom := (oom nomem).

(* r owns a block that holds exactly xs, the remaining cells being raw *)
Definition good (m : mem) (r : rv) (xs : list V) : Prop :=
  match ptr r with
  | None => cap r = 0 /\ xs = []
  | Some b => b < next m /\ length xs <= cap r /\ blk m b = Some (somes xs ++ raws (cap r - length xs))
  end.
Definition fresh (m : mem) : Prop := forall b, next m <= b -> blk m b = None.
(* nothing but the block of r was touched; a new block is really new, the old
   one is kept or freed *)
Definition framed (m : mem) (r : rv) (m' : mem) (r' : rv) : Prop :=
  next m <= next m' /\
  (forall b, ptr r <> Some b -> ptr r' <> Some b -> blk m' b = blk m b) /\
  (forall b, ptr r' = Some b -> ptr r = Some b \/ next m <= b) /\
  (forall b, ptr r = Some b -> ptr r' = Some b \/ blk m' b = None).
Definition after (m : mem) (r : rv) (m' : mem) (r' : rv) (ys : list V) : Prop :=
  good m' r' ys /\ framed m r m' r' /\ fresh m'.

Lemma good_lt : forall m r xs b, good m r xs -> ptr r = Some b -> b < next m.
Proof. unfold good; intros m r xs b H E; rewrite E in H; apply H. Qed.
Lemma good_cap : forall m r xs, good m r xs -> length xs <= cap r.
Proof. unfold good; intros m r xs H; destruct (ptr r); [apply H|destruct H as [-> ->]; auto]. Qed.
Lemma good_same : forall m m' r xs, good m r xs -> next m <= next m' ->
  (forall b, ptr r = Some b -> blk m' b = blk m b) -> good m' r xs.
Proof.
  unfold good; intros m m' r xs H N E; destruct (ptr r) as [b|]; auto.
  destruct H as (L & C & B). rewrite E by auto. repeat split; auto; lia.
Qed.
Lemma after_refl : forall m r xs, good m r xs -> fresh m -> after m r m r xs.
Proof. intros m r xs G F; split; [auto|]. split; [|auto]. repeat split; auto. Qed.
Lemma after_same : forall m m' r xs, good m r xs -> fresh m ->
  (forall b, blk m' b = blk m b) -> next m <= next m' -> after m r m' r xs.
Proof.
  intros m m' r xs G F E N. split; [eapply good_same; eauto; lia|]. split.
  - repeat split; auto; lia.
  - intros b Hb. rewrite E. apply F; lia.
Qed.

Lemma alloc_spec : forall n (m : mem),
  match allocate nomem n m with
  | Ok nb m1 => nb = next m /\ blk m1 nb = Some (raws n) /\
      (forall b', b' <> nb -> blk m1 b' = blk m b') /\ next m1 = S nb
  | Exc _ m1 => (forall b, blk m1 b = blk m b) /\ next m1 = next m /\ oom
  | Bad => False
  end.
Proof.
  intros n m; unfold allocate. destruct (nomem (tick m)) eqn:E; simpl.
  - repeat split; auto. exists (tick m); auto.
  - rewrite Nat.eqb_refl. repeat split; auto.
    intros b' H; destruct (Nat.eqb_spec b' (next m)); congruence.
Qed.

Lemma dealloc_spec : forall n b (m : mem), blk m b = Some (raws n) ->
  exists m', deallocate b n m = Ok tt m' /\ blk m' b = None /\ others b m m'.
Proof.
  intros n b m H; unfold deallocate; rewrite H, raws_len, Nat.eqb_refl, forallb_raws.
  eexists; split; [reflexivity|]. split; [apply blk_set_eq | apply others_set].
Qed.

Lemma drop_new_spec : forall {A} (a : A) ys k nb dst c (m : mem),
  blk m nb = Some (somes ys ++ raws k) -> dst = length ys -> c = length ys + k ->
  exists m', drop_new nb dst c a m = Exc a m' /\ blk m' nb = None /\ others nb m m'.
Proof.
  intros A a ys k nb dst c m H -> ->. unfold drop_new.
  destruct (destroy_spec ys nb [] (raws k) m 0 (length ys)) as (m1 & E1 & B1 & O1); auto.
  rewrite E1; cbn [andthen]. simpl in B1. rewrite <- raws_app in B1.
  destruct (dealloc_spec _ _ _ B1) as (m2 & E2 & B2 & O2).
  rewrite E2; cbn [rethrow]. exists m2; repeat split; auto.
  - apply (others_trans _ _ _ _ O1 O2).
  - apply (others_trans _ _ _ _ O1 O2).
Qed.

Lemma drop_old_spec : forall (m : mem) r xs, good m r xs ->
  exists m', drop_old r (length xs) m = Ok tt m' /\
    (forall b, ptr r = Some b -> blk m' b = None) /\
    (forall b, ptr r <> Some b -> blk m' b = blk m b) /\ next m' = next m.
Proof.
  intros m r xs G. unfold good in G. unfold drop_old. destruct (ptr r) as [b|].
  - destruct G as (L & C & B).
    destruct (destroy_spec xs b [] (raws (cap r - length xs)) m 0 (length xs)) as (m1 & E1 & B1 & O1); auto.
    rewrite E1; cbn [andthen]. simpl in B1. rewrite <- raws_app in B1.
    replace (length xs + (cap r - length xs)) with (cap r) in B1 by lia.
    destruct (dealloc_spec _ _ _ B1) as (m2 & E2 & B2 & O2). rewrite E2.
    destruct (others_trans _ _ _ _ O1 O2) as [O N].
    exists m2. split; [auto|]. split; [intros b' H; injection H as <-; auto|].
    split; [|auto]. intros b' H. apply O. congruence.
  - exists m. split; [auto|]. split; [discriminate|auto].
Qed.

(* a new block was filled with ys: the old one goes *)
Lemma swap_in : forall (m m1 : mem) r xs ys nc,
  good m r xs -> fresh m ->
  (forall b, b <> next m -> blk m1 b = blk m b) -> next m1 = S (next m) ->
  blk m1 (next m) = Some (somes ys ++ raws (nc - length ys)) -> length ys <= nc ->
  exists m', drop_old r (length xs) m1 = Ok tt m' /\
    after m r m' (RV (Some (next m)) nc) ys.
Proof.
  intros m m1 r xs ys nc G F O N B L.
  assert (NP : ptr r <> Some (next m)). { intros H. pose proof (good_lt _ _ _ _ G H). lia. }
  assert (G1 : good m1 r xs).
  { apply (good_same m); auto; [lia|]. intros b Hb. apply O. congruence. }
  destruct (drop_old_spec m1 r xs G1) as (m' & E & D & K & N').
  exists m'. split; [auto|].
  split; [|split].
  - unfold good; simpl. repeat split; [lia|auto|]. rewrite K; auto.
  - split; [lia|]. split; [|split].
    + simpl. intros b H1 H2. rewrite K by auto. apply O. congruence.
    + simpl. intros b H. injection H as <-. right; lia.
    + intros b H. right; auto.
  - intros b Hb. destruct (ptr r) as [ob|] eqn:Ep.
    + destruct (Nat.eq_dec ob b) as [->|]; [auto|]. rewrite K by congruence. rewrite O by lia. apply F; lia.
    + rewrite K by congruence. rewrite O by lia. apply F; lia.
Qed.

(* filling the new block failed: it goes *)
Lemma back_out : forall {A} (a : A) (m m1 : mem) r xs ys k dst nc,
  good m r xs -> fresh m ->
  (forall b, b <> next m -> blk m1 b = blk m b) -> next m1 = S (next m) ->
  blk m1 (next m) = Some (somes ys ++ raws k) -> dst = length ys -> nc = length ys + k ->
  exists m', drop_new (next m) dst nc a m1 = Exc a m' /\ after m r m' r xs.
Proof.
  intros A a m m1 r xs ys k dst nc G F O N B Hd Hn.
  destruct (drop_new_spec a ys k _ dst nc m1 B Hd Hn) as (m' & E & D & O' & N').
  assert (NP : ptr r <> Some (next m)). { intros H. pose proof (good_lt _ _ _ _ G H). lia. }
  exists m'. split; auto.
  assert (K : forall b, blk m' b = blk m b).
  { intros b. destruct (Nat.eq_dec b (next m)) as [->|Hb].
    - rewrite D, F; auto. - rewrite O', O; auto. }
  split; [|split].
  - apply (good_same m); auto; lia.
  - repeat split; auto; lia.
  - intros b Hb. rewrite K. apply F; lia.
Qed.

(* work inside the block *)
Lemma in_place : forall (m m' : mem) r xs ys b,
  good m r xs -> fresh m -> ptr r = Some b -> others b m m' -> length ys <= cap r ->
  blk m' b = Some (somes ys ++ raws (cap r - length ys)) -> after m r m' r ys.
Proof.
  intros m m' r xs ys b G F P [O N] L B. pose proof (good_lt _ _ _ _ G P).
  split; [|split].
  - unfold good. rewrite P. repeat split; auto; lia.
  - repeat split; auto; try lia. intros b' H1 _. apply O. congruence.
  - intros b' Hb. rewrite O by lia. apply F; lia.
Qed.

Lemma relocate_spec : forall (m : mem) r xs nc,
  good m r xs -> fresh m -> length xs <= nc ->
  match relocate fails nomem r (length xs) nc m with
  | Ok r' m' => after m r m' r' xs /\ r' = RV (Some (next m)) nc
  | Exc r' m' => after m r m' r xs /\ r' = r /\ (throws \/ oom)
  | Bad => False
  end.
Proof.
  intros m r xs nc G F L. unfold relocate.
  pose proof (alloc_spec nc m) as A. destruct (allocate nomem nc m) as [nb m1|nb m1|]; auto.
  - destruct A as (-> & B1 & O1 & N1). destruct (ptr r) as [ob|] eqn:P.
    + assert (NE : ob <> next m) by (pose proof (good_lt _ _ _ _ G P); lia).
      assert (BO : blk m1 ob = Some ([] ++ somes xs ++ raws (cap r - length xs))).
      { rewrite O1 by auto. unfold good in G; rewrite P in G. apply G. }
      pose proof (transfer_spec fails xs ob [] (raws (cap r - length xs)) (next m) [] (raws (nc - length xs)) m1 0 (length xs) 0 BO eq_refl eq_refl) as T.
      assert (BN : blk m1 (next m) = Some ([] ++ raws (length xs) ++ raws (nc - length xs))).
      { rewrite B1. simpl. rewrite <- raws_app. do 2 f_equal. lia. }
      specialize (T BN eq_refl). destruct (transfer fails ob 0 (length xs) (next m) 0 m1) as [d m2|d m2|]; auto.
      * destruct T as (Ed & B2 & O2 & N2).
        destruct (swap_in m m2 r xs xs nc) as (m3 & E3 & A3); auto; try lia.
        { intros b Hb. rewrite O2, O1; auto. }
        rewrite E3; cbn [andthen]. auto.
      * destruct T as (k & Hk & Ed & B2 & (O2 & N2) & Tr). simpl in B2, Ed.
        destruct (back_out r m m2 r xs (firstn k xs) (nc - k) d nc) as (m3 & E3 & A3); auto; try lia.
        { intros b Hb. rewrite O2, O1; auto. }
        { rewrite B2. rewrite <- raws_app. do 3 f_equal. lia. }
        { rewrite firstn_length; lia. } { rewrite firstn_length; lia. }
        rewrite E3; auto.
    + destruct (swap_in m m1 r xs xs nc) as (m3 & E3 & A3); auto; try lia.
      { unfold good in G; rewrite P in G. destruct G as [_ ->]. simpl. rewrite B1, Nat.sub_0_r; auto. }
      unfold drop_old in E3. rewrite P in E3. injection E3 as <-. auto.
  - destruct A as (B & N & T). split; [|auto]. apply after_same; auto; try lia.
Qed.

Lemma increase_ge : forall old new, new <= increase half old new.
Proof. intros; unfold increase; destruct (old <? half); lia. Qed.

Lemma push_prep_spec : forall (m : mem) r xs n,
  good m r xs -> fresh m -> length xs <= n ->
  match prepare_push_back fails nomem half r (length xs) n m with
  | Ok r' m' => after m r m' r' xs /\ n <= cap r' /\
      (n <= cap r -> r' = r /\ m' = m) /\ (cap r < n -> r' = RV (Some (next m)) (increase half (cap r) n))
  | Exc r' m' => after m r m' r xs /\ r' = r /\ (throws \/ oom)
  | Bad => False
  end.
Proof.
  intros m r xs n G F L. unfold prepare_push_back. destruct (Nat.ltb_spec (cap r) n).
  - pose proof (increase_ge (cap r) n).
    pose proof (relocate_spec m r xs (increase half (cap r) n) G F ltac:(lia)) as R.
    destruct (relocate fails nomem r (length xs) (increase half (cap r) n) m); auto.
    destruct R as [R ->]. simpl. repeat split; auto; try apply R; lia.
  - split; [apply after_refl; auto|]. split; auto. split; [auto|lia].
Qed.

Lemma reserve_spec : forall (m : mem) r xs n,
  good m r xs -> fresh m ->
  match raw_reserve fails nomem r (length xs) n m with
  | Ok r' m' => after m r m' r' xs /\ n <= cap r' /\ cap r <= cap r'
  | Exc r' m' => after m r m' r xs /\ r' = r /\ (throws \/ oom)
  | Bad => False
  end.
Proof.
  intros m r xs n G F. unfold raw_reserve. pose proof (good_cap _ _ _ G). destruct (Nat.ltb_spec (cap r) n).
  - pose proof (relocate_spec m r xs n G F ltac:(lia)) as R.
    destruct (relocate fails nomem r (length xs) n m); auto.
    destruct R as [R ->]. simpl. repeat split; auto; try apply R; lia.
  - split; [apply after_refl; auto|]. auto.
Qed.

Lemma shrink_spec : forall (m : mem) r xs,
  good m r xs -> fresh m ->
  match raw_shrink fails nomem r (length xs) m with
  | Ok r' m' => after m r m' r' xs /\ cap r' = length xs
  | Exc r' m' => after m r m' r xs /\ r' = r /\ (throws \/ oom)
  | Bad => False
  end.
Proof.
  intros m r xs G F. unfold raw_shrink. destruct (ptr r) as [ob|] eqn:P.
  - destruct (Nat.eqb_spec (length xs) (cap r)).
    + split; auto. apply after_refl; auto.
    + destruct (Nat.ltb_spec 0 (length xs)).
      * pose proof (relocate_spec m r xs (length xs) G F ltac:(lia)) as R.
        destruct (relocate fails nomem r (length xs) (length xs) m); auto.
        destruct R as [R ->]; auto.
      * destruct xs; [|simpl in *; lia].
        destruct (drop_old_spec m r [] G) as (m' & E & D & K & N). simpl length in *. rewrite E; cbn [andthen].
        split; auto. split; [|split].
        { split; auto. }
        { split; [lia|]. split; [|split]; [intros; apply K; auto | simpl; discriminate | intros; right; auto]. }
        { intros b Hb. destruct (Nat.eq_dec ob b) as [->|]; [apply D; auto|]. rewrite K by congruence. apply F; lia. }
  - split; [apply after_refl; auto|]. unfold good in G. rewrite P in G. destruct G as [-> ->]. auto.
Qed.

Lemma reads_same : forall (m m' : mem) s v, reads m s v -> fresh m ->
  (forall b, b <> next m -> blk m' b = blk m b) -> reads m' s v.
Proof.
  unfold reads; intros m m' [x|b i] v R F O; simpl in *; auto.
  destruct (Nat.eq_dec b (next m)) as [->|]; [rewrite F in R by lia; discriminate|]. rewrite O; auto.
Qed.
(* the source is not an element of the block of r *)
Definition outside (r : rv) (s : src) : Prop := forall b i, s = Ref b i -> ptr r <> Some b.
Lemma reads_outside : forall (m m' : mem) r s v b, reads m s v -> outside r s -> ptr r = Some b ->
  others b m m' -> reads m' s v.
Proof.
  unfold reads; intros m m' r [x|b' i] v b R X P [O N]; simpl in *; auto.
  rewrite O; auto. intros ->. apply (X b i); auto.
Qed.

Lemma resize_spec : forall (m : mem) r xs n s v,
  good m r xs -> fresh m -> reads m s v ->
  match raw_resize fails nomem half r (length xs) n s m with
  | Ok r' m' => after m r m' r' (firstn n xs ++ repeat v (n - length xs)) /\ (n <= cap r -> r' = r)
  | Exc r' m' => after m r m' r xs /\ r' = r /\ (throws \/ oom)
  | Bad => False
  end.
Proof.
  intros m r xs n s v G F R. unfold raw_resize.
  pose proof (good_cap _ _ _ G) as Lc.
  destruct (Nat.ltb_spec n (length xs)).
  - destruct (ptr r) as [ob|] eqn:P.
    2:{ unfold good in G; rewrite P in G. destruct G as [_ ->]. simpl in *; lia. }
    assert (B : blk m ob = Some (somes (firstn n xs) ++ somes (skipn n xs) ++ raws (cap r - length xs))).
    { unfold good in G; rewrite P in G. destruct G as (_ & _ & ->). rewrite app_assoc, <- somes_app, firstn_skipn; auto. }
    destruct (destroy_spec (skipn n xs) ob (somes (firstn n xs)) (raws (cap r - length xs)) m n (length xs) B) as (m' & E & B' & O).
    { rewrite somes_len, firstn_length; lia. }
    { rewrite somes_len, firstn_length, skipn_length; lia. }
    rewrite E; cbn [andthen]. split; auto.
    replace (n - length xs) with 0 by lia. simpl. rewrite app_nil_r.
    apply (in_place m m' r xs _ ob); auto; [rewrite firstn_length; lia|].
    rewrite B', <- raws_app. do 3 f_equal. rewrite firstn_length, skipn_length. lia.
  - destruct (Nat.ltb_spec (length xs) n).
    + rewrite firstn_all2 by lia. destruct (Nat.ltb_spec (cap r) n).
      * set (nc := increase half (cap r) n). assert (Hnc : n <= nc) by apply increase_ge.
        pose proof (alloc_spec nc m) as A. destruct (allocate nomem nc m) as [nb m1|nb m1|]; auto.
        -- destruct A as (-> & B1 & O1 & N1).
           assert (T : match (match ptr r with Some ob => transfer fails ob 0 (length xs) (next m) 0 m1 | None => Ok 0 m1 end) with
             | Ok d m2 => d = length xs /\ blk m2 (next m) = Some (somes xs ++ raws (nc - length xs)) /\ others (next m) m1 m2
             | Exc d m2 => exists k, k < length xs /\ d = k /\ blk m2 (next m) = Some (somes (firstn k xs) ++ raws (nc - k)) /\ others (next m) m1 m2 /\ throws
             | Bad => False end).
           { destruct (ptr r) as [ob|] eqn:P.
             - assert (NE : ob <> next m) by (pose proof (good_lt _ _ _ _ G P); lia).
               pose proof (transfer_spec fails xs ob [] (raws (cap r - length xs)) (next m) [] (raws (nc - length xs)) m1 0 (length xs) 0) as T.
               destruct (transfer fails ob 0 (length xs) (next m) 0 m1) as [d m2|d m2|].
               + apply T; auto. { rewrite O1 by auto. unfold good in G; rewrite P in G; apply G. }
                 rewrite B1. simpl. rewrite <- raws_app. do 2 f_equal; lia.
               + destruct T as (k & Hk & Ed & B2 & O2 & Tr); auto.
                 { rewrite O1 by auto. unfold good in G; rewrite P in G; apply G. }
                 { rewrite B1. simpl. rewrite <- raws_app. do 2 f_equal; lia. }
                 exists k. simpl in B2. repeat split; auto; try apply O2.
                 rewrite B2, <- raws_app. do 3 f_equal; lia.
               + apply T; auto. { rewrite O1 by auto. unfold good in G; rewrite P in G; apply G. }
                 rewrite B1. simpl. rewrite <- raws_app. do 2 f_equal; lia.
             - unfold good in G; rewrite P in G. destruct G as [_ ->]. simpl. rewrite Nat.sub_0_r. auto using others_refl. }
           destruct (match ptr r with Some ob => transfer fails ob 0 (length xs) (next m) 0 m1 | None => Ok 0 m1 end) as [d m2|d m2|]; auto.
           ++ destruct T as (-> & B2 & O2 & N2).
              assert (R2 : reads m2 s v). { apply (reads_same m); auto. intros b Hb; rewrite O2, O1; auto. }
              pose proof (fill_spec fails (n - length xs) s v (next m) (somes xs) (raws (nc - n)) m2 (length xs) n R2) as Fi.
              assert (B2' : blk m2 (next m) = Some (somes xs ++ raws (n - length xs) ++ raws (nc - n))).
              { rewrite B2, <- raws_app. do 3 f_equal; lia. }
              specialize (Fi B2' ltac:(rewrite somes_len; auto) ltac:(rewrite somes_len; lia)).
              destruct (fill fails (next m) (length xs) n s m2) as [d3 m3|d3 m3|]; auto.
              ** destruct Fi as (_ & B3 & O3 & N3).
                 destruct (swap_in m m3 r xs (xs ++ repeat v (n - length xs)) nc) as (m4 & E4 & A4); auto; try lia.
                 { intros b Hb; rewrite O3, O2, O1; auto. }
                 { rewrite B3, app_assoc, <- somes_app. do 3 f_equal. rewrite app_length, repeat_length. lia. }
                 { rewrite app_length, repeat_length; lia. }
                 rewrite E4; cbn [andthen]. split; [auto|lia].
              ** destruct Fi as (k & Hk & Ed & B3 & (O3 & N3) & Tr).
                 destruct (back_out r m m3 r xs (xs ++ repeat v k) (nc - length xs - k) d3 nc) as (m4 & E4 & A4); auto; try lia.
                 { intros b Hb; rewrite O3, O2, O1; auto. }
                 { rewrite B3, app_assoc, <- somes_app, <- raws_app. do 3 f_equal. lia. }
                 { rewrite app_length, repeat_length. rewrite somes_len in Ed. lia. }
                 { rewrite app_length, repeat_length. lia. }
                 rewrite E4; auto.
           ++ destruct T as (k & Hk & -> & B2 & (O2 & N2) & Tr).
              destruct (back_out r m m2 r xs (firstn k xs) (nc - k) k nc) as (m3 & E3 & A3); auto; try lia.
              { intros b Hb. rewrite O2, O1; auto. }
              { rewrite firstn_length; lia. } { rewrite firstn_length; lia. }
              rewrite E3; auto.
        -- destruct A as (B & N & T). split; [|auto]. apply after_same; auto; try lia.
      * destruct (ptr r) as [ob|] eqn:P.
        2:{ unfold good in G; rewrite P in G. destruct G as [G ->]. simpl in *; lia. }
        assert (B : blk m ob = Some (somes xs ++ raws (n - length xs) ++ raws (cap r - n))).
        { unfold good in G; rewrite P in G. destruct G as (_ & _ & ->). rewrite <- raws_app. do 3 f_equal; lia. }
        pose proof (fill_spec fails (n - length xs) s v ob (somes xs) (raws (cap r - n)) m (length xs) n R B ltac:(rewrite somes_len; auto) ltac:(rewrite somes_len; lia)) as Fi.
        destruct (fill fails ob (length xs) n s m) as [d m1|d m1|]; auto.
        -- destruct Fi as (_ & B1 & O1). split; auto.
           apply (in_place m m1 r xs _ ob); auto; rewrite app_length, repeat_length; try lia.
           rewrite B1, app_assoc, <- somes_app. do 3 f_equal; lia.
        -- destruct Fi as (k & Hk & Ed & B1 & O1 & Tr).
           destruct (destroy_spec (repeat v k) ob (somes xs) (raws (n - length xs - k) ++ raws (cap r - n)) m1 (length xs) d) as (m2 & E2 & B2 & O2).
           { rewrite B1. auto. } { rewrite somes_len; auto. } { rewrite repeat_length; auto. }
           rewrite E2; cbn [rethrow]. split; [|auto].
           apply (in_place m m2 r xs _ ob); auto; [eapply others_trans; eauto|].
           rewrite B2, <- !raws_app. do 3 f_equal. rewrite repeat_length; lia.
    + assert (length xs = n) by lia. subst n. rewrite firstn_all, Nat.sub_diag. simpl. rewrite app_nil_r.
      split; auto. apply after_refl; auto.
Qed.

Lemma assign_new : forall (m : mem) r xs n s v nc,
  good m r xs -> fresh m -> reads m s v -> n <= nc ->
  match (match allocate nomem nc m with
    | Exc _ m1 => Exc (r, true) m1
    | Bad => Bad
    | Ok nb m1 =>
        match fill fails nb 0 n s m1 with
        | Exc dst m2 => drop_new nb dst nc (r, true) m2
        | Bad => Bad
        | Ok _ m2 => andthen (drop_old r (length xs) m2) (fun m3 => Ok (RV (Some nb) nc, true) m3)
        end
    end) with
  | Ok (r', _) m' => after m r m' r' (repeat v n) /\ cap r' = nc
  | Exc (r', valid) m' => after m r m' r xs /\ valid = true /\ r' = r /\ (throws \/ oom)
  | Bad => False
  end.
Proof.
  intros m r xs n s v nc G F R Hnc.
  pose proof (alloc_spec nc m) as A; destruct (allocate nomem nc m) as [nb m1|nb m1|]; auto.
  - destruct A as (-> & B1 & O1 & N1).
    assert (R1 : reads m1 s v) by (apply (reads_same m); auto).
    assert (B1' : blk m1 (next m) = Some ([] ++ raws n ++ raws (nc - n))) by (rewrite B1; cbn [app]; rewrite <- raws_app; do 2 f_equal; lia).
    pose proof (fill_spec fails n s v (next m) [] (raws (nc - n)) m1 0 n R1 B1' eq_refl eq_refl) as Fi.
    destruct (fill fails (next m) 0 n s m1) as [d m2|d m2|]; auto.
    + destruct Fi as (_ & B2 & O2 & N2).
      destruct (swap_in m m2 r xs (repeat v n) nc) as (m3 & E3 & A3); auto; try (rewrite repeat_length; lia); try lia.
      { intros b Hb; rewrite O2, O1; auto. }
      { rewrite B2; cbn [app]; rewrite repeat_length; auto. }
      rewrite E3; cbn [andthen]; auto.
    + destruct Fi as (k & Hk & Ed & B2 & (O2 & N2) & Tr); cbn [app length Nat.add] in B2, Ed.
      destruct (back_out (r, true) m m2 r xs (repeat v k) (nc - k) d nc) as (m3 & E3 & A3); auto; try (rewrite repeat_length; lia); try lia.
      { intros b Hb; rewrite O2, O1; auto. }
      { rewrite B2; rewrite <- raws_app; do 3 f_equal; lia. }
      rewrite E3; auto.
  - destruct A as (B & N & T); split; [apply after_same; auto; try lia|]; auto.
Qed.

Lemma assign_spec : forall (m : mem) r xs n s v,
  good m r xs -> fresh m -> reads m s v -> (n <= cap r -> outside r s) ->
  match raw_assign fails nomem half r (length xs) n s m with
  | Ok (r', _) m' => after m r m' r' (repeat v n)
  | Exc (r', valid) m' => after m r m' r (if valid then xs else []) /\ r' = r /\ (throws \/ oom)
      /\ (valid = false -> n <= cap r)
  | Bad => False
  end.
Proof.
  intros m r xs n s v G F R X. unfold raw_assign. pose proof (good_cap _ _ _ G) as Lc.
  destruct ((n <=? cap r) && negb (cap r =? 0)) eqn:Ec.
  2:{ cbn zeta. pose proof (assign_new m r xs n s v (increase half (cap r) n) G F R (increase_ge _ _)) as A.
      match type of A with match ?x with _ => _ end => destruct x as [[r' ?] m'|[r' va] m'|] end; auto; [apply A|].
      destruct A as (A & -> & -> & T). repeat split; auto; try apply A; discriminate. }
  apply andb_prop in Ec. destruct Ec as [Ec1 Ec2]. apply Nat.leb_le in Ec1. apply negb_true_iff, Nat.eqb_neq in Ec2.
  destruct (ptr r) as [ob|] eqn:P.
  2:{ unfold good in G; rewrite P in G. destruct G as [G ->]. lia. }
  assert (B : blk m ob = Some ([] ++ somes xs ++ raws (cap r - length xs))).
  { unfold good in G; rewrite P in G. apply G. }
  destruct (destroy_spec xs ob [] (raws (cap r - length xs)) m 0 (length xs) B eq_refl eq_refl) as (m1 & E1 & B1 & O1).
  rewrite E1; cbn [andthen].
  assert (R1 : reads m1 s v) by (eapply reads_outside; eauto).
  assert (B1' : blk m1 ob = Some ([] ++ raws n ++ raws (cap r - n))).
  { rewrite B1. cbn [app]. rewrite <- !raws_app. do 2 f_equal; lia. }
  pose proof (fill_spec fails n s v ob [] (raws (cap r - n)) m1 0 n R1 B1' eq_refl eq_refl) as Fi.
  destruct (fill fails ob 0 n s m1) as [d m2|d m2|]; auto.
  - destruct Fi as (_ & B2 & O2). apply (in_place m m2 r xs _ ob); auto; [eapply others_trans; eauto|rewrite repeat_length; lia|].
    rewrite B2. cbn [app]. rewrite repeat_length; auto.
  - destruct Fi as (k & Hk & Ed & B2 & O2 & Tr). cbn [app] in B2.
    destruct (destroy_spec (repeat v k) ob [] (raws (n - k) ++ raws (cap r - n)) m2 0 d) as (m3 & E3 & B3 & O3).
    { rewrite B2; auto. } { auto. } { rewrite repeat_length; auto. }
    rewrite E3; cbn [rethrow]. split; [|auto].
    apply (in_place m m3 r xs _ ob); auto; [|simpl; lia|].
    { eapply others_trans; [eauto|eapply others_trans; eauto]. }
    rewrite B3. cbn [app somes map length]. rewrite <- !raws_app, repeat_length. do 2 f_equal; lia.
Qed.

(* a new vector's storage *)
Lemma init_range_spec : forall (m : mem) ss vals n,
  fresh m -> Forall2 (reads m) ss vals -> n = length ss ->
  match init_from_range fails nomem (RV None 0) n ss m with
  | Ok r m' => after m (RV None 0) m' r vals /\ ptr r = Some (next m)
  | Exc _ m' => after m (RV None 0) m' (RV None 0) [] /\ (throws \/ oom)
  | Bad => False
  end.
Proof.
  intros m ss vals n F R ->. unfold init_from_range.
  assert (G : good m (RV None 0) []) by (split; auto).
  assert (LE : length ss = length vals) by (clear - R; induction R; simpl; auto).
  pose proof (alloc_spec (length ss) m) as A. destruct (allocate nomem (length ss) m) as [nb m1|nb m1|]; auto.
  - destruct A as (-> & B1 & O1 & N1).
    assert (R1 : Forall2 (reads m1) ss vals).
    { apply (Forall2_impl (reads m)); auto. intros s v H; apply (reads_same m); auto. }
    pose proof (copy_spec fails ss vals (next m) [] [] m1 R1) as C. cbn [app length] in C. rewrite app_nil_r in C. specialize (C B1).
    destruct (copy fails (next m) 0 ss m1) as [d m2|d m2|]; auto.
    + destruct C as (_ & B2 & O2 & N2).
      destruct (swap_in m m2 (RV None 0) [] vals (length ss)) as (m3 & E3 & A3); auto; try lia.
      { intros b Hb; rewrite O2, O1; auto. }
      { rewrite B2, LE, Nat.sub_diag. auto. }
      injection E3 as <-. auto.
    + destruct C as (k & Hk & Ed & B2 & (O2 & N2) & Tr). rewrite app_nil_r in B2.
      destruct (back_out (RV None 0) m m2 (RV None 0) [] (firstn k vals) (length ss - k) d (length ss)) as (m3 & E3 & A3); auto; try lia.
      { intros b Hb; rewrite O2, O1; auto. }
      { rewrite firstn_length; lia. } { rewrite firstn_length; lia. }
      rewrite E3; auto.
  - destruct A as (B & N & T). split; [|auto]. apply after_same; auto; try lia.
Qed.

(* a hole of n raw cells between L and R *)
Definition gapped (m : mem) (r : rv) (L : list V) (n : nat) (R : list V) : Prop :=
  exists b, ptr r = Some b /\ b < next m /\ length L + n + length R <= cap r /\
    blk m b = Some (somes L ++ raws n ++ somes R ++ raws (cap r - (length L + n + length R))).


Lemma prepare_insert_spec : forall (m : mem) r xs off count es,
  good m r xs -> fresh m -> off <= length xs -> 0 < count -> 0 < es -> length xs mod es = 0 ->
  match prepare_insert fails nomem half r (length xs) off count es m with
  | Ok (r', _) m' => gapped m' r' (firstn off xs) (count * es) (skipn off xs) /\ framed m r m' r' /\ fresh m'
  | Exc (r', vc) m' => r' = r /\
      ((oom /\ vc = 0 /\ after m r m' r xs /\ cap r < length xs + count * es)
       \/ (throws /\ vc * es <= length xs /\ after m r m' r (firstn (vc * es) xs)
           /\ (cap r < length xs + count * es -> vc * es = length xs)))
  | Bad => False
  end.
Proof.
  intros m r xs off count es G F Ho Hc He Hm. unfold prepare_insert.
  set (ins := count * es). assert (Hi : 0 < ins) by (unfold ins; nia).
  pose proof (good_cap _ _ _ G) as Lc.
  assert (VC : length xs / es * es = length xs).
  { pose proof (Nat.div_mod (length xs) es). lia. }
  assert (FA : firstn (length xs / es * es) xs = xs) by (rewrite VC; apply firstn_all).
  assert (LF : length (firstn off xs) = off) by (rewrite firstn_length; lia).
  assert (LS : length (skipn off xs) = length xs - off) by apply skipn_length.
  assert (XS : somes xs = somes (firstn off xs) ++ somes (skipn off xs)).
  { rewrite <- somes_app, firstn_skipn; auto. }
  destruct (Nat.ltb_spec (cap r) (length xs + ins)) as [Hr|Hr].
  - set (nc := increase half (cap r) (length xs + ins)).
    assert (Hnc : length xs + ins <= nc) by apply increase_ge.
    pose proof (alloc_spec nc m) as A. destruct (allocate nomem nc m) as [nb m1|nb m1|]; auto.
    2:{ destruct A as (B & N & T). split; auto. left. repeat split; auto. apply (after_same m m1 r xs); auto. all: try lia. intros b Hb. rewrite B. apply F; lia. }
    destruct A as (-> & B1 & O1 & N1). destruct (ptr r) as [ob|] eqn:P.
    + assert (NE : ob <> next m) by (pose proof (good_lt _ _ _ _ G P); lia).
      assert (BO : blk m ob = Some (somes (firstn off xs) ++ somes (skipn off xs) ++ raws (cap r - length xs))).
      { unfold good in G; rewrite P in G. destruct G as (_ & _ & ->). rewrite XS, <- app_assoc; auto. }
      assert (BN : blk m1 (next m) = Some ([] ++ raws (length (firstn off xs)) ++ raws (nc - off))).
      { rewrite B1. cbn [app]. rewrite <- raws_app. do 2 f_equal. lia. }
      assert (BO1 : blk m1 ob = Some ([] ++ somes (firstn off xs) ++ somes (skipn off xs) ++ raws (cap r - length xs))).
      { rewrite O1; auto. }
      pose proof (transfer_spec fails (firstn off xs) ob [] _ (next m) [] _ m1 0 off 0 BO1 eq_refl ltac:(simpl; lia) BN eq_refl) as T.
      destruct (transfer fails ob 0 off (next m) 0 m1) as [dl m2|dl m2|]; auto.
      * destruct T as (Edl & B2 & O2 & N2). cbn [app length Nat.add] in B2, Edl. rewrite LF in Edl. subst dl.
        assert (BO2 : blk m2 ob = Some (somes (firstn off xs) ++ somes (skipn off xs) ++ raws (cap r - length xs))).
        { rewrite O2, O1; auto. }
        assert (BN2 : blk m2 (next m) = Some ((somes (firstn off xs) ++ raws ins) ++ raws (length (skipn off xs)) ++ raws (nc - (length xs + ins)))).
        { rewrite B2, <- app_assoc, <- !raws_app. do 3 f_equal. lia. }
        pose proof (transfer_spec fails (skipn off xs) ob _ _ (next m) _ _ m2 off (length xs) (off + ins) BO2 ltac:(rewrite somes_len; lia)
          ltac:(rewrite somes_len; lia) BN2 ltac:(rewrite app_length, somes_len, raws_len; lia)) as T.
        destruct (transfer fails ob off (length xs) (next m) (off + ins) m2) as [dr m3|dr m3|]; auto.
        -- destruct T as (_ & B3 & O3 & N3).
           assert (G3 : good m3 r xs).
           { apply (good_same m); auto; [lia|]. intros b Hb. rewrite O3, O2, O1; auto; congruence. }
           destruct (drop_old_spec m3 r xs G3) as (m4 & E4 & D4 & K4 & N4).
           rewrite E4; cbn [andthen]. split; [|split].
           ++ exists (next m). cbn [ptr cap]. split; auto. split; [lia|]. split; [lia|].
              rewrite K4 by congruence. rewrite B3, <- !app_assoc. do 5 f_equal. lia.
           ++ split; [lia|]. cbn [ptr]. split; [|split].
              ** intros b H1 H2. rewrite K4 by auto. rewrite O3, O2, O1; auto; congruence.
              ** intros b Hb; injection Hb as <-; right; lia.
              ** intros b Hb; right; auto.
           ++ intros b Hb. destruct (Nat.eq_dec ob b) as [->|]; [auto|]. rewrite K4 by congruence.
              rewrite O3, O2, O1 by lia. apply F; lia.
        -- destruct T as (k & Hk & Ed & B3 & (O3 & N3) & Tr).
           rewrite app_length, somes_len, raws_len, LF in Ed.
           destruct (destroy_spec (firstn off xs) (next m) [] (raws ins ++ somes (firstn k (skipn off xs)) ++ raws (length (skipn off xs) - k) ++ raws (nc - (length xs + ins))) m3 0 off) as (m4 & E4 & B4 & O4 & N4).
           { rewrite B3. cbn [app]. rewrite <- !app_assoc. auto. } { auto. } { simpl; lia. }
           rewrite E4; cbn [andthen].
           destruct (destroy_spec (firstn k (skipn off xs)) (next m) (raws off ++ raws ins) (raws (length (skipn off xs) - k) ++ raws (nc - (length xs + ins))) m4 (off + ins) dr) as (m5 & E5 & B5 & O5 & N5).
           { rewrite B4, LF. cbn [app]. rewrite <- !app_assoc; auto. } { rewrite app_length, !raws_len; auto. }
           { rewrite app_length, !raws_len, firstn_length. lia. }
           rewrite E5; cbn [andthen].
           destruct (dealloc_spec nc (next m) m5) as (m6 & E6 & B6 & O6 & N6).
           { rewrite B5, <- !raws_app, firstn_length. do 2 f_equal. lia. }
           rewrite E6; cbn [rethrow]. split; auto. right. split; auto. split; [lia|]. split; [|auto].
           rewrite FA.
           apply after_same; [auto|auto| |lia].
           intros b. destruct (Nat.eq_dec b (next m)) as [->|]; [rewrite B6, F; auto|].
           rewrite O6, O5, O4, O3, O2, O1; auto.
      * destruct T as (k & Hk & Ed & B2 & (O2 & N2) & Tr). cbn [app length Nat.add] in B2, Ed.
        destruct (back_out (r, length xs / es) m m2 r xs (firstn k (firstn off xs)) (nc - k) dl nc) as (m3 & E3 & A3); auto; try lia.
        { intros b Hb. rewrite O2, O1; auto. }
        { rewrite B2, <- raws_app. do 3 f_equal. lia. }
        { rewrite firstn_length; lia. } { rewrite firstn_length; lia. }
        rewrite E3. split; auto. right. split; auto. split; [lia|]. rewrite FA. auto.
    + unfold good in G; rewrite P in G. destruct G as [Gc ->]. cbn [length] in *.
      split; [|split].
      * exists (next m). cbn [ptr cap]. rewrite !firstn_nil, !skipn_nil. cbn [length]. split; auto. split; [lia|]. split; [lia|].
        rewrite B1. cbn [somes map app]. rewrite <- raws_app. do 2 f_equal; lia.
      * split; [lia|]. cbn [ptr]. split; [intros; apply O1; congruence|]. split; [|congruence].
        intros b Hb; injection Hb as <-; right; lia.
      * intros b Hb. rewrite O1 by lia. apply F; lia.
  - destruct (ptr r) as [ob|] eqn:P.
    2:{ unfold good in G; rewrite P in G. destruct G as [Gc ->]. simpl in *; lia. }
    assert (BO : blk m ob = Some (somes (firstn off xs) ++ somes (skipn off xs) ++ raws (cap r - length xs))).
    { unfold good in G; rewrite P in G. destruct G as (_ & _ & ->). rewrite XS, <- app_assoc; auto. }
    assert (Lt : ob < next m) by (eapply good_lt; eauto).
    assert (FR : forall m', others ob m m' -> framed m r m' r /\ fresh m').
    { intros m' [O N]. split.
      - repeat split; auto; try lia. intros b H1 _. apply O. congruence.
      - intros b Hb. rewrite O by lia. apply F; lia. }
    destruct (Nat.leb_spec (length xs - off) ins) as [Hov|Hov].
    + assert (BO' : blk m ob = Some ((somes (firstn off xs) ++ somes (skipn off xs) ++ raws (ins - (length xs - off))) ++ raws (length (skipn off xs)) ++ raws (cap r - (length xs + ins)))).
      { rewrite BO, <- !app_assoc, <- !raws_app. do 4 f_equal. lia. }
      pose proof (transfer_spec fails (skipn off xs) ob _ _ ob _ _ m off (length xs) (off + ins) BO ltac:(rewrite somes_len; lia)
        ltac:(rewrite somes_len; lia) BO' ltac:(rewrite !app_length, !somes_len, raws_len; lia)) as T.
      destruct (transfer fails ob off (length xs) ob (off + ins) m) as [d m1|d m1|]; auto.
      * destruct T as (_ & B1 & O1).
        destruct (destroy_spec (skipn off xs) ob (somes (firstn off xs)) (raws (ins - (length xs - off)) ++ somes (skipn off xs) ++ raws (cap r - (length xs + ins))) m1 off (length xs)) as (m2 & E2 & B2 & O2).
        { rewrite B1, <- !app_assoc; auto. } { rewrite somes_len; auto. } { rewrite somes_len; lia. }
        rewrite E2; cbn [andthen]. assert (O := others_trans _ _ _ _ O1 O2). split; [|apply FR; auto].
        exists ob. split; auto. split; [destruct O; lia|]. split; [lia|].
        rewrite B2. f_equal. f_equal. rewrite app_assoc, <- raws_app. f_equal; [f_equal; lia|]. f_equal. f_equal. lia.
      * destruct T as (k & Hk & Ed & B1 & O1 & Tr).
        rewrite !app_length, !somes_len, raws_len in Ed.
        destruct (destroy_spec (firstn k (skipn off xs)) ob (somes (firstn off xs) ++ somes (skipn off xs) ++ raws (ins - (length xs - off))) (raws (length (skipn off xs) - k) ++ raws (cap r - (length xs + ins))) m1 (off + ins) d) as (m2 & E2 & B2 & O2).
        { rewrite B1; auto. } { rewrite !app_length, !somes_len, raws_len; lia. } { rewrite !app_length, !somes_len, raws_len, !firstn_length; lia. }
        rewrite E2; cbn [rethrow]. split; auto. right. split; auto. split; [lia|]. split; [|lia].
        rewrite FA. apply (in_place m m2 r xs _ ob); auto; [eapply others_trans; eauto|].
        rewrite B2, XS, <- !app_assoc, <- !raws_app, firstn_length. do 4 f_equal. lia.
    + replace (length xs + ins - length xs) with ins by lia.
      replace (length xs + ins - ins) with (length xs) by lia.
      set (e := ins) in *. set (R := skipn off xs) in *. set (n := length xs - off - e).
      assert (Hn : n = length xs - off - e) by reflexivity. clearbody n.
      assert (LR : length R = n + e) by (lia).
      assert (Rs : R = firstn n R ++ skipn n R) by (rewrite firstn_skipn; auto).
      assert (Lt1 : length (skipn n R) = e) by (rewrite skipn_length; lia).
      assert (Lf1 : length (firstn n R) = n) by (rewrite firstn_length; lia).
      assert (BA : blk m ob = Some ((somes (firstn off xs) ++ somes (firstn n R)) ++ somes (skipn n R) ++ raws (cap r - length xs))).
      { rewrite BO. rewrite Rs at 1. rewrite somes_app, <- !app_assoc; auto. }
      assert (BD : blk m ob = Some (somes xs ++ raws (length (skipn n R)) ++ raws (cap r - (length xs + e)))).
      { rewrite BO, XS, <- !app_assoc, <- raws_app. do 4 f_equal. lia. }
      pose proof (transfer_spec fails (skipn n R) ob _ _ ob _ _ m (length xs - e) (length xs) (length xs) BA
        ltac:(rewrite app_length, !somes_len; lia) ltac:(rewrite app_length, !somes_len; lia) BD ltac:(rewrite somes_len; auto)) as T.
      destruct (transfer fails ob (length xs - e) (length xs) ob (length xs) m) as [dt m1|dt m1|]; auto.
      * destruct T as (Edt & B1 & O1). rewrite somes_len, Lt1 in Edt.
        unfold transfer_right. destruct (Nat.ltb_spec (length xs - e) off); [lia|].
        replace (length xs - e - off) with n by (lia).
        assert (B1' : blk m1 ob = Some (somes (firstn off xs) ++ somes R ++ somes (skipn n R) ++ raws (cap r - (length xs + e)))).
        { rewrite B1, XS, <- app_assoc; auto. }
        pose proof (right_spec fails n e R ob _ _ m1 Hi LR B1') as T. rewrite somes_len, LF in T.
        replace (off + n + e) with (length xs) in T by (lia).
        replace (off + n) with (length xs - e) in T by (lia).
        destruct (right_n fails n ob (length xs - e) (length xs) m1) as [d m2|d m2|]; auto.
        -- destruct T as (_ & B2 & O2).
           destruct (destroy_spec (firstn e R) ob (somes (firstn off xs)) (somes (firstn n R) ++ somes (skipn n R) ++ raws (cap r - (length xs + e))) m2 off (off + e)) as (m3 & E3 & B3 & O3).
           { rewrite B2; auto. } { rewrite somes_len; auto. } { rewrite somes_len, !firstn_length; lia. }
           rewrite E3; cbn [andthen].
           assert (O := others_trans _ _ _ _ O1 (others_trans _ _ _ _ O2 O3)). split; [|apply FR; auto].
           exists ob. split; auto. split; [destruct O; lia|]. split; [lia|].
           rewrite B3. f_equal. f_equal. f_equal; [rewrite firstn_length; f_equal; lia|].
           rewrite app_assoc, <- somes_app, firstn_skipn. f_equal. f_equal. lia.
        -- destruct T as (k & Hk & Ed & B2 & O2 & Tr).
           set (p := off + (n + e - 1 - k)).
           assert (Ep : pred d = p) by (unfold p in *; lia).
           assert (Lp : p < length xs) by (unfold p in *; lia).
           set (vc := pred d / es).
           assert (Hv : vc * es <= p).
           { unfold vc. rewrite Ep. pose proof (Nat.div_mod p es). nia. }
           assert (FP : somes (firstn off xs) ++ somes (firstn (n + e - 1 - k) R) = somes (firstn (vc * es) xs) ++ somes (skipn (vc * es) (firstn p xs))).
           { rewrite <- !somes_app. f_equal.
             transitivity (firstn p xs).
             - unfold R, p. rewrite <- (firstn_skipn off xs) at 3. rewrite firstn_app, LF.
               rewrite (firstn_all2 (n := off + (n + e - 1 - k))) by (rewrite LF; lia). f_equal. f_equal. lia.
             - rewrite <- (firstn_skipn (vc * es) (firstn p xs)) at 1. f_equal. rewrite firstn_firstn. f_equal. lia. }
           assert (B2' : blk m2 ob = Some (somes (firstn (vc * es) xs) ++ somes (skipn (vc * es) (firstn p xs)) ++
              None :: somes (skipn (n - k) (firstn n R) ++ skipn n R) ++ raws (cap r - (length xs + e)))).
           { rewrite B2, app_assoc, FP, somes_app, <- !app_assoc. cbn [app]. rewrite <- ?app_assoc. reflexivity. }
           destruct (destroy_spec _ ob _ _ m2 (vc * es) (pred d) B2') as (m3 & E3 & B3 & O3).
           { rewrite somes_len, firstn_length; lia. } { rewrite somes_len, skipn_length, !firstn_length; lia. }
           rewrite E3; cbn [andthen].
           destruct (destroy_spec (skipn (n - k) (firstn n R) ++ skipn n R) ob (somes (firstn (vc * es) xs) ++ raws (length (skipn (vc * es) (firstn p xs))) ++ [None]) (raws (cap r - (length xs + e))) m3 d dt) as (m4 & E4 & B4 & O4).
           { rewrite B3, <- !app_assoc; auto. }
           { rewrite !app_length, somes_len, raws_len, skipn_length, !firstn_length. simpl. lia. }
           { rewrite !app_length, somes_len, raws_len, !skipn_length, !firstn_length. simpl. lia. }
           rewrite E4; cbn [rethrow]. split; auto. right. split; auto. split; [lia|]. split; [|lia].
           apply (in_place m m4 r xs _ ob); auto; [|rewrite firstn_length; lia|].
           { eapply others_trans; [eauto|eapply others_trans; [eauto|eapply others_trans; eauto]]. }
           rewrite B4, <- !app_assoc. f_equal. f_equal. change ([None] : list (@cell V)) with (@raws V 1). rewrite <- !raws_app. f_equal.
           rewrite app_length, !skipn_length, !firstn_length. lia.
      * destruct T as (k & Hk & Ed & B1 & O1 & Tr). rewrite somes_len in Ed.
        destruct (destroy_spec (firstn k (skipn n R)) ob (somes xs) (raws (length (skipn n R) - k) ++ raws (cap r - (length xs + e))) m1 (length xs) dt) as (m2 & E2 & B2 & O2).
        { rewrite B1; auto. } { rewrite somes_len; auto. } { rewrite somes_len, firstn_length; lia. }
        rewrite E2; cbn [rethrow]. split; auto. right. split; auto. split; [lia|]. split; [|lia].
        rewrite FA. apply (in_place m m2 r xs _ ob); auto; [eapply others_trans; eauto|].
        rewrite B2, <- !raws_app, firstn_length. do 3 f_equal. lia.
Qed.

Lemma erase_spec : forall (m : mem) r xs off count es,
  good m r xs -> fresh m -> 0 < count -> 0 < es -> off + count * es <= length xs ->
  match raw_erase fails r (length xs) off count es m with
  | Ok (r', _) m' => after m r m' r (firstn off xs ++ skipn (off + count * es) xs) /\ r' = r
  | Exc (r', vc) m' => r' = r /\ throws /\ off <= vc * es + (es - 1) /\ vc * es < length xs - count * es /\
      after m r m' r (firstn (vc * es) (firstn off xs ++ skipn (off + count * es) xs))
  | Bad => False
  end.
Proof.
  intros m r xs off count es G F Hc He Ho. unfold raw_erase.
  set (e := count * es) in *. assert (Hi : 0 < e) by (unfold e; nia).
  pose proof (good_cap _ _ _ G) as Lc.
  destruct (Nat.ltb_spec (length xs) e); [lia|].
  destruct (ptr r) as [ob|] eqn:P.
  2:{ unfold good in G; rewrite P in G. destruct G as [Gc ->]. simpl in *; lia. }
  unfold transfer_left. destruct (Nat.ltb_spec (length xs) (off + e)); [lia|].
  set (W := skipn off xs). set (n := length xs - (off + e)).
  assert (Hn : n = length xs - (off + e)) by reflexivity. clearbody n.
  assert (LF : length (firstn off xs) = off) by (rewrite firstn_length; lia).
  assert (LW : length W = e + n) by (unfold W; rewrite skipn_length; lia).
  assert (SW : skipn (off + e) xs = skipn e W).
  { unfold W. clear. revert off. induction xs; intros [|off]; cbn [skipn Nat.add]; rewrite ?skipn_nil; auto. }
  assert (BO : blk m ob = Some (somes (firstn off xs) ++ somes W ++ raws (cap r - length xs))).
  { unfold good in G; rewrite P in G. destruct G as (_ & _ & ->). rewrite app_assoc, <- somes_app. unfold W. rewrite firstn_skipn; auto. }
  pose proof (left_spec fails n e W ob _ _ m Hi LW BO) as T. rewrite somes_len, LF in T.
  rewrite SW.
  destruct (left_n fails n ob (off + e) off m) as [d m1|d m1|]; auto.
  - destruct T as (_ & B1 & O1).
    destruct (destroy_spec (skipn n W) ob (somes (firstn off xs) ++ somes (skipn e W)) (raws (cap r - length xs)) m1 (length xs - e) (length xs)) as (m2 & E2 & B2 & O2).
    { rewrite B1, <- !app_assoc; auto. } { rewrite app_length, !somes_len, skipn_length; lia. }
    { rewrite app_length, !somes_len, !skipn_length; lia. }
    rewrite E2; cbn [andthen]. split; auto.
    apply (in_place m m2 r xs _ ob); auto; [eapply others_trans; eauto|rewrite app_length, skipn_length; lia|].
    rewrite B2, somes_app, <- raws_app. f_equal. f_equal. f_equal. rewrite app_length, !skipn_length; lia.
  - destruct T as (k & Hk & Ed & B1 & O1 & Tr).
    set (ys := firstn off xs ++ skipn e W). set (vc := d / es).
    assert (Hd : vc * es <= d /\ d < vc * es + es).
    { unfold vc. pose proof (Nat.div_mod d es ltac:(lia)). pose proof (Nat.mod_upper_bound d es ltac:(lia)). nia. }
    assert (Ly : length ys = length xs - e) by (unfold ys; rewrite app_length, skipn_length; lia).
    assert (FP : somes (firstn off xs) ++ somes (firstn k (skipn e W)) = somes (firstn (vc * es) ys) ++ somes (skipn (vc * es) (firstn d ys))).
    { rewrite <- !somes_app. f_equal. transitivity (firstn d ys).
      - unfold ys. rewrite firstn_app, LF. rewrite (firstn_all2 (n := d)) by (rewrite LF; lia). f_equal. f_equal. lia.
      - rewrite <- (firstn_skipn (vc * es) (firstn d ys)) at 1. f_equal. rewrite firstn_firstn. f_equal. lia. }
    assert (B1' : blk m1 ob = Some (somes (firstn (vc * es) ys) ++ somes (skipn (vc * es) (firstn d ys)) ++ None :: somes (skipn (S k) W) ++ raws (cap r - length xs))).
    { rewrite B1, app_assoc, FP, <- !app_assoc; auto. }
    destruct (destroy_spec _ ob _ _ m1 (vc * es) d B1') as (m2 & E2 & B2 & O2).
    { rewrite somes_len, firstn_length; lia. } { rewrite somes_len, skipn_length, !firstn_length; lia. }
    rewrite E2; cbn [andthen].
    destruct (destroy_spec (skipn (S k) W) ob (somes (firstn (vc * es) ys) ++ raws (length (skipn (vc * es) (firstn d ys))) ++ [None]) (raws (cap r - length xs)) m2 (S d) (length xs)) as (m3 & E3 & B3 & O3).
    { rewrite B2, <- !app_assoc; auto. }
    { rewrite !app_length, somes_len, raws_len, skipn_length, !firstn_length; simpl; lia. }
    { rewrite !app_length, somes_len, raws_len, !skipn_length, !firstn_length; simpl; lia. }
    rewrite E3; cbn [rethrow]. split; auto. split; auto. split; [lia|]. split; [lia|].
    apply (in_place m m3 r xs _ ob); auto; [|rewrite firstn_length; lia|].
    { eapply others_trans; [eauto|eapply others_trans; eauto]. }
    rewrite B3, <- !app_assoc. f_equal. f_equal. change ([None] : list (@cell V)) with (@raws V 1). rewrite <- !raws_app. f_equal.
    rewrite !skipn_length, !firstn_length. lia.
Qed.
End Raw.
