(* Whole programs over vectors, self-references, and the cost of appending. *)
From Coq Require Import List Bool Arith Lia.
From Verif Require Import VecModel VecWorld VecSpec VecProofs VecRaw VecOps.
Import ListNotations.

Set Default Proof Using "Type".
Section Run.
Context {V : Type}.
Variable fails nomem : nat -> bool.
Variable half : nat.
Notation mem := (@mem V).
Notation src := (@src V).

(* what a user can read through v *)
Definition sees (m : mem) (v : vec) (xs : list V) : Prop :=
  vsize v = length xs /\ vsize v <= cap (vraw v) /\
  forall k x, nth_error xs k = Some x -> exists b, ptr (vraw v) = Some b /\ read m (Ref b k) = Some x.

Lemma vgood_sees : forall m v xs, vgood m v xs -> sees m v xs.
Proof.
  intros m v xs [G S]. pose proof (good_cap _ _ _ G). split; auto. split; [lia|].
  intros k x Hk. assert (k < length xs) by (apply nth_error_Some; congruence).
  unfold good in G. destruct (ptr (vraw v)) as [b|].
  - exists b. split; auto. simpl. destruct G as (_ & _ & ->). rewrite nth_error_app1 by (rewrite somes_len; auto).
    unfold somes. rewrite nth_error_map, Hk. auto.
  - destruct G as [_ ->]. simpl in *; lia.
Qed.

Lemma wgood0 : wgood (@mem0 V) [] [].
Proof.
  split; [constructor|]. split; [intros b _; reflexivity|]. split.
  - intros i j v w b H. destruct i; discriminate.
  - intros b H. exfalso; apply H; reflexivity.
Qed.

(* every vector leaves its scope: nothing stays allocated *)
Lemma destruct_all_spec : forall vs (m : mem) ls, wgood m vs ls ->
  exists m', destruct_all vs m = Ok tt m' /\ forall b, blk m' b = None.
Proof.
  induction vs as [|v vs IH]; intros m ls (H2 & F & U & Ow).
  - exists m. split; auto. intros b. destruct (blk m b) eqn:E; auto.
    destruct (Ow b ltac:(congruence)) as (i & w & H & _). destruct i; discriminate.
  - inversion H2 as [|? xs ? ls' G H2']; subst.
    destruct (destruct_vec_spec m v xs G F) as (m1 & E1 & (N & O & W & D) & F1).
    cbn [destruct_all]. rewrite E1; cbn [andthen].
    assert (KEEP : forall j w b, nth_error vs j = Some w -> ptr (vraw w) = Some b -> ptr (vraw v) <> Some b).
    { intros j w b Hw Pw Pv. specialize (U 0 (S j) v w b eq_refl Hw Pv Pw). discriminate. }
    apply (IH m1 ls'). split; [|split; [|split]]; auto.
    + apply Forall2_of_nth; [eapply Forall2_len; eauto|]. intros i w zs Hw Hz.
      destruct (Forall2_nth _ _ _ _ _ H2' Hw) as (zs' & Hz' & [Gw Sw]). rewrite Hz in Hz'. injection Hz' as <-.
      split; auto. apply (good_same m); auto. intros b Pb. apply O; [|discriminate]. eapply KEEP; eauto.
    + intros i j w u b Hw Hu Pw Pu. specialize (U (S i) (S j) w u b Hw Hu Pw Pu). lia.
    + intros b Hb.
      assert (DEC : ptr (vraw v) = Some b \/ ptr (vraw v) <> Some b).
      { destruct (ptr (vraw v)) as [c|]; [destruct (Nat.eq_dec c b); [left|right]; congruence|right; discriminate]. }
      destruct DEC as [Pv|Pv]; [destruct (D b Pv); [discriminate|congruence]|].
      rewrite O in Hb by (auto; discriminate). destruct (Ow b Hb) as ([|i] & w & Hw & Pw).
      * simpl in Hw. congruence.
      * exists i, w. auto.
Qed.

Lemma step_outcome : forall op (ls : list (list V)) threw ls', step_ok fails nomem op ls threw ls' -> outcome op ls threw ls'.
Proof. intros op ls [|] ls'; simpl; auto. intros [H|[_ H]]; auto. Qed.

Lemma run_spec : forall ops vs (m : mem) ls,
  wgood m vs ls -> safe ops ls -> (Exists inserts ops -> forall t, nomem t = false) ->
  exists fl vs' m' ls', run fails nomem half ops vs m = Some (fl, vs', m') /\ trace ls ops fl ls' /\ wgood m' vs' ls'.
Proof.
  induction ops as [|op ops IH]; intros vs m ls W S NI.
  - exists [], vs, m, ls. split; auto. split; [constructor|auto].
  - destruct S as [L S]. cbn [run].
    pose proof (exec_spec fails nomem half op m vs ls W L (fun H => NI (Exists_cons_hd _ _ _ H))) as P.
    destruct (exec fails nomem half op vs m) as [vs1 m1|vs1 m1|]; [| |contradiction].
    + destruct P as (ls1 & W1 & R).
      destruct (IH vs1 m1 ls1 W1) as (fl & vs' & m' & ls' & E & T & W'); auto.
      { apply (S false). exact R. }
      rewrite E. do 4 eexists. split; [reflexivity|]. split; eauto. econstructor; eauto.
    + destruct P as (ls1 & W1 & R). apply step_outcome in R.
      destruct (IH vs1 m1 ls1 W1) as (fl & vs' & m' & ls' & E & T & W'); auto.
      { apply (S true). exact R. }
      rewrite E. do 4 eexists. split; [reflexivity|]. split; eauto. econstructor; eauto.
Qed.

Lemma run_quiet : (forall t, fails t = false) -> (forall t, nomem t = false) ->
  forall ops vs (m : mem) ls, wgood m vs ls -> legal_all ops ls ->
  exists vs' m', run fails nomem half ops vs m = Some (errors ops ls, vs', m') /\ wgood m' vs' (play ops ls).
Proof.
  intros Hf Hn. induction ops as [|op ops IH]; intros vs m ls W L.
  - exists vs, m. auto.
  - destruct L as [L1 L2]. cbn [run errors play].
    pose proof (exec_spec fails nomem half op m vs ls W L1 (fun _ => Hn)) as P.
    destruct (exec fails nomem half op vs m) as [vs1 m1|vs1 m1|]; [| |contradiction].
    + destruct P as (ls1 & W1 & R). unfold effect in *. rewrite R in *.
      destruct (IH vs1 m1 ls1 W1 L2) as (vs' & m' & E & W'). rewrite E. eauto.
    + destruct P as (ls1 & W1 & [[R ->]|[[[t T]|[t T]] _]]); [|congruence|congruence].
      unfold effect in *. rewrite R in *.
      destruct (IH vs1 m1 ls W1 L2) as (vs' & m' & E & W'). rewrite E. eauto.
Qed.

(* ---- an element of the vector as the argument ---- *)
Lemma alias_read : forall (m : mem) v xs k x, vgood m v xs -> nth_error xs k = Some x ->
  exists b, ptr (vraw v) = Some b /\ reads m (Ref b k) x.
Proof. intros m v xs k x G H. destruct (vgood_sees m v xs G) as (_ & _ & K). apply K; auto. Qed.

Lemma push_alias_in_place : forall (m : mem) v xs k x b,
  vgood m v xs -> fresh m -> nth_error xs k = Some x -> ptr (vraw v) = Some b -> length xs < cap (vraw v) ->
  match push_back fails nomem half v (Ref b k) m with
  | Ok v' m' => vafter m v m' v' (xs ++ [x])
  | Exc v' m' => vafter m v m' v' xs /\ (throws fails \/ oom nomem)
  | Bad => False
  end.
Proof.
  intros m v xs k x b G F Hk Hb Hc. apply push_back_spec; auto; [|lia].
  destruct (alias_read m v xs k x G Hk) as (b' & Hb' & R). congruence.
Qed.

Lemma push_alias_bad : forall (m : mem) v xs k b,
  vgood m v xs -> fresh m -> k < length xs -> ptr (vraw v) = Some b -> length xs = cap (vraw v) ->
  match push_back fails nomem half v (Ref b k) m with
  | Ok _ _ => False
  | Exc v' m' => vafter m v m' v' xs /\ v' = v
  | Bad => True
  end.
Proof.
  intros m [r n] xs k b [G Hn] F Hk Hb Hc. simpl in *. subst n. unfold push_back; cbn [vraw vsize].
  pose proof (push_prep_spec fails nomem half m r xs (S (length xs)) G F ltac:(lia)) as P.
  destruct (prepare_push_back fails nomem half r (length xs) (S (length xs)) m) as [r' m1|r' m1|]; auto.
  2:{ destruct P as (A & -> & T). split; auto. split; auto. }
  destruct P as ((G1 & (N & O & W & D) & F1) & _ & _ & Hnew). rewrite Hnew by lia. cbn [ptr].
  assert (Lb : b < next m) by (eapply good_lt; eauto).
  assert (B : blk m1 b = None).
  { destruct (D b Hb) as [E|]; auto. rewrite Hnew in E by lia. injection E as E. lia. }
  unfold construct. destruct (blk m1 (next m)) as [l|]; auto.
  simpl read. rewrite B. destruct (nth_error l (length xs)) as [[|]|]; auto.
Qed.

Lemma assign_alias_bad : forall (m : mem) v xs n k b,
  vgood m v xs -> fresh m -> k < length xs -> ptr (vraw v) = Some b -> 0 < n -> n <= cap (vraw v) ->
  assign fails nomem half v n (Ref b k) m = Bad.
Proof.
  intros m [r sz] xs n k b [G Hn] F Hk Hb H0 Hc. simpl in *. subst sz. unfold assign; cbn [vraw vsize].
  unfold raw_assign. destruct (Nat.leb_spec n (cap r)); [|lia]. destruct (Nat.eqb_spec (cap r) 0); [lia|].
  cbn [andb negb]. rewrite Hb.
  unfold good in G. rewrite Hb in G. destruct G as (L & C & B).
  destruct (destroy_spec xs b [] (raws (cap r - length xs)) m 0 (length xs) B eq_refl eq_refl) as (m1 & E1 & B1 & O1).
  rewrite E1; cbn [andthen]. unfold fill. destruct (Nat.ltb_spec n 0); [lia|]. rewrite Nat.sub_0_r.
  destruct n; [lia|]. cbn [repeat copy]. unfold construct. cbn [app] in B1. rewrite B1.
  assert (E : read m1 (Ref b k) = None).
  { simpl. rewrite B1, nth_error_app1 by (rewrite raws_len; lia).
    assert (Z : forall q i, i < q -> nth_error (@raws V q) i = Some None).
    { induction q; intros [|i] H2; simpl; auto; try lia. apply IHq; lia. }
    rewrite Z by lia. auto. }
  rewrite E. destruct (nth_error (raws (length xs) ++ raws (cap r - length xs)) 0) as [[|]|]; auto.
Qed.

(* ---- the cost of appending ---- *)
Lemma copy_ticks : forall ss b i (m m' : mem) d, copy fails b i ss m = Ok d m' -> tick m' = tick m + length ss.
Proof.
  induction ss as [|s ss IH]; cbn [copy]; intros b i m m' d H.
  - injection H as <- <-. simpl; lia.
  - destruct (construct fails b i s m) as [u m1|u m1|] eqn:E; try discriminate.
    assert (tick m1 = S (tick m)).
    { unfold construct in E. destruct (blk m b) as [l|]; [|discriminate].
      destruct (nth_error l i) as [[|]|]; try discriminate. destruct (read m s); [|discriminate].
      destruct (fails (tick m)); [discriminate|]. injection E as <- <-. auto. }
    apply IH in H. simpl; lia.
Qed.
Lemma destroy_n_ticks : forall n b i (m m' : mem) u, destroy_n n b i m = Ok u m' -> tick m' = tick m.
Proof.
  induction n; cbn [destroy_n]; intros b i m m' u H.
  - injection H as <- <-; auto.
  - destruct (destroy1 b i m) as [u1 m1|u1 m1|] eqn:E; try discriminate.
    apply IHn in H. unfold destroy1 in E. destruct (blk m b) as [l|]; [|discriminate].
    destruct (nth_error l i) as [[|]|]; try discriminate. injection E as <- <-. auto.
Qed.
Lemma drop_old_ticks : forall r n (m m' : mem) u, drop_old r n m = Ok u m' -> tick m' = tick m.
Proof.
  intros r n m m' u H. unfold drop_old in H. destruct (ptr r) as [b|]; [|injection H as <- <-; auto].
  unfold destroy in H. destruct (n <? 0); [discriminate|].
  destruct (destroy_n (n - 0) b 0 m) as [u1 m1|u1 m1|] eqn:E; try discriminate. cbn [andthen] in H.
  apply destroy_n_ticks in E. unfold deallocate in H. destruct (blk m1 b); [|discriminate].
  destruct (_ && _); [|discriminate]. injection H as <- <-. auto.
Qed.

Lemma relocate_ticks : forall (m m' : mem) r r' xs nc, good m r xs ->
  relocate fails nomem r (length xs) nc m = Ok r' m' -> tick m' = tick m + 1 + length xs.
Proof.
  intros m m' r r' xs nc G H. unfold relocate in H.
  destruct (allocate nomem nc m) as [nb m1|nb m1|] eqn:A; try discriminate.
  assert (T1 : tick m1 = S (tick m)).
  { unfold allocate in A. destruct (nomem (tick m)); [discriminate|]. injection A as <- <-. auto. }
  destruct (ptr r) as [ob|] eqn:P.
  - destruct (transfer fails ob 0 (length xs) nb 0 m1) as [d m2|d m2|] eqn:T; try discriminate.
    2:{ unfold drop_new in H. destruct (andthen _ _); discriminate. }
    unfold transfer in T. destruct (length xs <? 0); [discriminate|].
    apply copy_ticks in T. rewrite map_length, seq_length in T.
    destruct (drop_old r (length xs) m2) as [u m3|u m3|] eqn:D; try discriminate. cbn [andthen] in H.
    injection H as <- <-. apply drop_old_ticks in D. lia.
  - injection H as <- <-. unfold good in G; rewrite P in G. destruct G as [_ ->]. simpl; lia.
Qed.

Lemma push_ticks : forall (m m' : mem) v v' xs s, vgood m v xs -> fresh m ->
  push_back fails nomem half v s m = Ok v' m' ->
  (length xs < cap (vraw v) /\ cap (vraw v') = cap (vraw v) /\ tick m' = tick m + 1) \/
  (length xs = cap (vraw v) /\ cap (vraw v') = increase half (cap (vraw v)) (S (length xs)) /\ tick m' = tick m + 2 + length xs).
Proof.
  intros m m' [r n] v' xs s [G Hn] F H. simpl in *. subst n. unfold push_back in H; cbn [vraw vsize] in H.
  assert (CT : forall b i sr (a c : mem) u, construct fails b i sr a = Ok u c -> tick c = tick a + 1).
  { intros b i sr a c u E. unfold construct in E. destruct (blk a b) as [l|]; [|discriminate].
    destruct (nth_error l i) as [[|]|]; try discriminate. destruct (read a sr); [|discriminate].
    destruct (fails (tick a)); [discriminate|]. injection E as <- <-. simpl. lia. }
  pose proof (good_cap _ _ _ G) as Lc.
  unfold prepare_push_back in H. destruct (Nat.ltb_spec (cap r) (S (length xs))).
  - right. pose proof (relocate_spec fails nomem m r xs (increase half (cap r) (S (length xs))) G F ltac:(pose proof (increase_ge half (cap r) (S (length xs))); lia)) as P.
    destruct (relocate fails nomem r (length xs) (increase half (cap r) (S (length xs))) m) as [r1 m1|r1 m1|] eqn:R; try discriminate.
    destruct P as [_ ->]. apply relocate_ticks in R; auto. cbn [ptr] in H.
    destruct (construct fails (next m) (length xs) s m1) as [u m2|u m2|] eqn:E; try discriminate.
    injection H as <- <-. apply CT in E. simpl. repeat split; lia.
  - left. destruct (ptr r) as [b|]; [|discriminate].
    destruct (construct fails b (length xs) s m) as [u m2|u m2|] eqn:E; try discriminate.
    injection H as <- <-. apply CT in E. simpl. repeat split; lia.
Qed.

(* events: every element construction and every allocation advances the clock *)
Lemma pushes_gen : (forall t, fails t = false) -> (forall t, nomem t = false) ->
  forall l (m : mem) v xs, wgood m [v] [xs] -> length xs + length l <= half ->
  exists fl v' m', run fails nomem half (map (fun x => PushBack 0 (Val x)) l) [v] m = Some (fl, [v'], m') /\
    ((cap (vraw v') = cap (vraw v) /\ tick m' = tick m + length l) \/
     (cap (vraw v') <= 2 * (length xs + length l) /\
      tick m' + 2 * (length xs + length l) + cap (vraw v) <= tick m + 4 * length l + 2 * length xs + cap (vraw v'))).
Proof.
  intros Hf Hn. induction l as [|x l IH]; intros m v xs W Hh.
  - exists [], v, m. cbn [map run]. split; auto.
  - cbn [map run exec]. unfold with_src, resolve, on. cbn [nth_error].
    assert (G : vgood m v xs) by (destruct W as (H2 & _); inversion H2; auto).
    assert (F : fresh m) by apply W.
    pose proof (push_back_spec fails nomem half m v xs (Ext x) x G F eq_refl) as P.
    destruct (push_back fails nomem half v (Ext x) m) as [v1 m1|v1 m1|] eqn:E.
    3:{ exfalso. apply P. intros _ b i H; discriminate. }
    2:{ exfalso. destruct P as [_ [[t T]|[t T]]]; [intros _ b i H; discriminate|congruence|congruence]. }
    assert (A : vafter m v m1 v1 (xs ++ [x])) by (apply P; intros _ b i H; discriminate).
    assert (W1 : wgood m1 [v1] [xs ++ [x]]) by (apply (world_upd m [v] [xs] 0 v xs m1 v1 _ W eq_refl eq_refl A)).
    cbn [upd]. simpl in Hh.
    destruct (IH m1 v1 (xs ++ [x]) W1) as (fl & v' & m' & R & C); [rewrite app_length; simpl; lia|].
    rewrite R. exists (false :: fl), v', m'. split; auto.
    pose proof (push_ticks m m1 v v1 xs (Ext x) G F E) as T.
    pose proof (good_cap _ _ _ (proj1 G)) as Lc.
    rewrite app_length in C. cbn [length] in *.
    destruct T as [(T1 & T2 & T3)|(T1 & T2 & T3)].
    + destruct C as [(C1 & C2)|(C1 & C2)]; [left; lia|right; lia].
    + right. unfold increase in T2. destruct (Nat.ltb_spec (cap (vraw v)) half); [|lia].
      destruct C as [(C1 & C2)|(C1 & C2)]; lia.
Qed.
End Run.
