(* Programs over vectors of trivial elements. *)
From Coq Require Import List Bool Arith Lia.
From Verif Require Import VecModel VecWorld VecSpec VecProofs VecRaw VecOps VecRun TrivModel TrivSpec TrivProofs.
Import ListNotations.

Set Default Proof Using "Type".
Section Run.
Context {V : Type}.
Variable nomem : nat -> bool.
Variable half : nat.
Variable ptrs : nat -> bool.
Notation mem := (@mem V).
Notation src := (@src V).
Notation cell := (@cell V).
Notation nof := (fun _ : nat => false).
Implicit Types (m mt : mem) (vs : list vec) (ls : list (list V)).

(* some memory of the generic vectors holds the elements *)
Definition tgood mt vs ls : Prop := exists m, wgood m vs ls /\ Rel m mt.

Lemma tgood0 : tgood mem0 [] [].
Proof.
  exists mem0. split; [apply wgood0|]. split; [auto|]. split; [auto|]. split; [intros b; exact I|auto].
Qed.
Lemma wgood_mine : forall m vs ls i v, wgood m vs ls -> nth_error vs i = Some v -> mine (vraw v) m.
Proof.
  intros m vs ls i v (H2 & _) Hv b Hb. destruct (Forall2_nth _ _ _ _ _ H2 Hv) as (xs & _ & [G _]). eapply good_lt; eauto.
Qed.
Lemma resolve_reachable : forall m vs ls (a : @arg V) s, wgood m vs ls -> resolve vs a = Some s ->
  match s with Ref b' _ => b' < next m | Ext _ => True end.
Proof.
  intros m vs ls [v|j k] s W H; cbn [resolve] in H.
  - injection H as <-. auto.
  - destruct (nth_error vs j) as [w|] eqn:E; [|discriminate]. destruct (k <? vsize w); [|discriminate].
    destruct (ptr (vraw w)) as [b|] eqn:P; [|discriminate]. cbn in H. injection H as <-. eapply wgood_mine; eauto.
Qed.
Lemma resolve_elsewhere : forall m vs ls i v (a : @arg V) s b, wgood m vs ls -> resolve vs a = Some s -> nth_error vs i = Some v ->
  foreign i a -> ptr (vraw v) = Some b -> match s with Ref b' _ => b' <> b | Ext _ => True end.
Proof.
  intros m vs ls i v [x|j k] s b W H Hv F P; cbn [resolve] in H.
  - injection H as <-. auto.
  - destruct (nth_error vs j) as [w|] eqn:E; [|discriminate]. destruct (k <? vsize w); [|discriminate].
    destruct (ptr (vraw w)) as [b'|] eqn:P'; [|discriminate]. cbn in H. injection H as <-. intros ->.
    destruct W as (_ & _ & U & _). apply F. eapply U; eauto.
Qed.
Lemma resolve_all_in : forall vs l ss s, resolve_all vs l = Some ss -> In s ss -> exists a, In a l /\ resolve (V := V) vs a = Some s.
Proof.
  induction l as [|a l IH]; intros ss s H Hs; cbn in H.
  - injection H as <-. contradiction.
  - destruct (resolve vs a) as [s1|] eqn:E1; [|discriminate]. destruct (resolve_all vs l) as [ss1|] eqn:E2; [|discriminate].
    injection H as <-. destruct Hs as [->|Hs].
    + exists a. split; [left; auto|auto].
    + destruct (IH _ _ eq_refl Hs) as (a' & A & B). exists a'. split; [right; auto|auto].
Qed.
Lemma sim_on : forall vs i m mt f ft, (forall v, nth_error vs i = Some v -> sim (f v m) (ft v mt)) ->
  sim (on vs i m f) (on vs i mt ft).
Proof.
  intros vs i m mt f ft H. unfold on. destruct (nth_error vs i) as [v|]; [|exact I]. specialize (H v eq_refl).
  destruct (f v m) as [a m1|a m1|]; [| |exact I]; destruct H as (mt1 & -> & R1); cbn; eauto.
Qed.
Lemma sim_adding : forall vs n x xt, sim (V := V) x xt -> sim (adding vs n x) (adding vs n xt).
Proof.
  intros vs n x xt H. destruct x as [a m1|a m1|]; [| |exact I]; destruct H as (mt1 & -> & R1); cbn; eauto.
Qed.

Lemma sim_exec : forall op m mt vs ls, wgood m vs ls -> legal ls op -> Rel m mt ->
  sim (exec nof nomem half op vs m) (t_exec nomem half ptrs op vs mt).
Proof.
  intros op m mt vs ls W L R.
  assert (M : forall i v, nth_error vs i = Some v -> mine (vraw v) m) by (intros; eapply wgood_mine; eauto).
  destruct op; cbn [exec t_exec]; unfold with_src, with_srcs;
    try (destruct (resolve vs a) as [s|] eqn:Es; [|exact I]);
    try (destruct (resolve_all vs l) as [ss|] eqn:Es; [|exact I]);
    try (apply sim_on; intros v0 Hv; specialize (M _ _ Hv)).
  - cbn. eauto.
  - apply sim_adding, sim_init_from_value; auto.
  - apply sim_adding, sim_init_from_range; auto. intros s Hs. destruct (resolve_all_in _ _ _ _ Es Hs) as (a & _ & Ha).
    eapply resolve_reachable; eauto.
  - destruct (nth_error vs j) as [v|] eqn:Hv; [|exact I]. pose proof (sim_copy_construct nomem v m mt R (M _ _ Hv)) as H.
    destruct (copy_construct nof nomem v m) as [a m1|a m1|]; [| |exact I]; destruct H as (mt1 & -> & R1); cbn; eauto.
  - destruct (nth_error vs j); [cbn; eauto|exact I].
  - apply sim_push_back; auto.
  - apply sim_pop_back; auto.
  - apply sim_insert_one; auto.
  - apply sim_insert_count; auto.
  - apply sim_insert_range; auto.
    + intros s Hs. destruct (resolve_all_in _ _ _ _ Es Hs) as (a & _ & Ha). eapply resolve_reachable; eauto.
    + intros b Hb s Hs. destruct (resolve_all_in _ _ _ _ Es Hs) as (a & Ia & Ha).
      inversion L; subst. eapply resolve_elsewhere; eauto. rewrite Forall_forall in H5. auto.
  - apply sim_erase_one; auto.
  - apply sim_erase_range; auto.
  - apply sim_resize; auto.
  - apply sim_assign; auto.
  - apply sim_reserve; auto.
  - apply sim_shrink; auto.
  - apply sim_clear; auto.
  - destruct (nth_error vs j) as [w|] eqn:Hw; [|exact I]. apply sim_on. intros v Hv. apply sim_copy_assign; auto. eapply M; eauto.
  - destruct (nth_error vs i) as [v|]; [|exact I]. destruct (nth_error vs j) as [w|]; [|exact I].
    pose proof (sim_move_assign v w m mt R) as H. destruct (move_assign v w m) as [[v' w'] m1|a m1|]; [| |exact I].
    + destruct H as (mt1 & -> & R1). cbn; eauto.
    + exact I.
  - destruct (nth_error vs i) as [v|]; [|exact I]. destruct (nth_error vs j) as [w|]; [|exact I]. cbn; eauto.
Qed.
End Run.

(* an operation allocates at most once, before it changes anything *)
Section Alloc.
Context {V : Type}.
Variable nomem : nat -> bool.
Variable half : nat.
Variable ptrs : nat -> bool.
Notation mem := (@mem V).
Notation nof := (fun _ : nat => false).

Definition once {A} (x y : @out V A) (m : mem) (a : A) : Prop := x = y \/ (nomem (tick m) = true /\ x = Exc a (step m)).
Ltac one := unfold allocate; match goal with |- context [nomem (tick ?m)] => destruct (nomem (tick m)) eqn:?; [right; split; auto|left; reflexivity] end.

Lemma once_relocate : forall r o n (m : mem), once (t_relocate nomem r o n m) (t_relocate nof r o n m) m r.
Proof. intros. unfold once, t_relocate. one. Qed.
Lemma once_value : forall r n s (m : mem), once (t_init_from_value nomem r n s m) (t_init_from_value nof r n s m) m r.
Proof. intros. unfold once, t_init_from_value. one. Qed.
Lemma once_range : forall p r n ss (m : mem), once (t_init_from_range nomem p r n ss m) (t_init_from_range nof p r n ss m) m r.
Proof. intros. unfold once, t_init_from_range. one. Qed.
Lemma once_push : forall v s (m : mem), once (t_push_back nomem half v s m) (t_push_back nof half v s m) m v.
Proof.
  intros v s m. unfold t_push_back, t_prepare_push_back. destruct (cap (vraw v) <? S (vsize v)); [|left; auto].
  destruct (once_relocate (vraw v) (vsize v) (increase half (cap (vraw v)) (S (vsize v))) m) as [->|[T ->]]; [left; auto|].
  right. split; auto. destruct v; auto.
Qed.
Lemma once_insert : forall p v off ss (m : mem), once (t_insert_srcs nomem half p v off ss m) (t_insert_srcs nof half p v off ss m) m (Vec (vraw v) 0).
Proof.
  intros p v off ss m. unfold t_insert_srcs, t_prepare_insert_1, t_prepare_insert. cbv zeta.
  destruct (cap (vraw v) <? vsize v + length ss * 1); [|left; auto]. unfold once. one.
Qed.
Lemma once_resize : forall v n s (m : mem), once (t_resize nomem half v n s m) (t_resize nof half v n s m) m v.
Proof.
  intros v n s m. unfold t_resize, t_raw_resize. destruct (n <? vsize v); [left; auto|]. destruct (vsize v <? n); [|left; auto].
  destruct (cap (vraw v) <? n); [|left; auto]. unfold once. one. destruct v; auto.
Qed.
Lemma once_assign : forall v n s (m : mem), once (t_assign nomem half v n s m) (t_assign nof half v n s m) m v.
Proof.
  intros v n s m. unfold t_assign, t_raw_assign. destruct ((n <=? cap (vraw v)) && negb (cap (vraw v) =? 0)); [left; auto|].
  cbv zeta. unfold once. one. destruct v; auto.
Qed.
Lemma once_reserve : forall v n (m : mem), once (t_reserve nomem v n m) (t_reserve nof v n m) m v.
Proof.
  intros v n m. unfold t_reserve, t_raw_reserve. destruct (cap (vraw v) <? n); [|left; auto].
  destruct (once_relocate (vraw v) (vsize v) n m) as [->|[T ->]]; [left; auto|]. right. split; auto. destruct v; auto.
Qed.
Lemma once_shrink : forall v (m : mem), once (t_shrink_to_fit nomem v m) (t_shrink_to_fit nof v m) m v.
Proof.
  intros v m. unfold t_shrink_to_fit, t_raw_shrink. destruct (ptr (vraw v)); [|left; auto]. destruct (vsize v =? cap (vraw v)); [left; auto|].
  destruct (0 <? vsize v); [|left; auto].
  destruct (once_relocate (vraw v) (vsize v) (vsize v) m) as [->|[T ->]]; [left; auto|]. right. split; auto. destruct v; auto.
Qed.
Lemma once_copy : forall v (m : mem), once (t_copy_construct nomem v m) (t_copy_construct nof v m) m vec0.
Proof.
  intros v m. unfold t_copy_construct.
  destruct (once_range true (RV None 0) (vsize v) (elems v) m) as [->|[T ->]]; [left; auto|right; auto].
Qed.
Lemma once_copy_assign : forall v w (m : mem), once (t_copy_assign nomem v w m) (t_copy_assign nof v w m) m v.
Proof. intros v w m. unfold t_copy_assign. destruct (once_copy w m) as [->|[T ->]]; [left; auto|right; auto]. Qed.
Lemma once_on : forall vs i (m : mem) f g, (forall v, nth_error vs i = Some v -> once (f v m) (g v m) m v) ->
  once (on vs i m f) (on vs i m g) m vs.
Proof.
  intros vs i m f g H. unfold on. destruct (nth_error vs i) as [v|] eqn:Hv; [|left; auto].
  destruct (H v eq_refl) as [->|[T ->]]; [left; auto|]. right. split; auto. rewrite upd_same; auto.
Qed.

(* the vectors after a failed allocation *)
Definition starved_vs (op : @vop V) (vs : list vec) : list vec :=
  match op with
  | InsertOne i _ _ | InsertCount i _ _ _ | InsertRange i _ _ =>
      match nth_error vs i with Some v => upd vs i (Vec (vraw v) 0) | None => vs end
  | _ => vs
  end.
Lemma once_exec : forall op vs (m : mem),
  once (t_exec nomem half ptrs op vs m) (t_exec nof half ptrs op vs m) m (starved_vs op vs).
Proof.
  intros op vs m. destruct op; cbn [t_exec starved_vs]; unfold with_src, with_srcs;
    try (destruct (resolve vs a) as [s|]; [|left; reflexivity]);
    try (destruct (resolve_all vs l) as [ss|]; [|left; reflexivity]);
    try (left; reflexivity).
  - unfold adding. destruct (once_value (RV None 0) n s m) as [->|[T ->]]; [left; auto|right; auto].
  - unfold adding. destruct (once_range (ptrs (tick m)) (RV None 0) (length l) ss m) as [->|[T ->]]; [left; auto|right; auto].
  - destruct (nth_error vs j) as [v|]; [|left; auto]. destruct (once_copy v m) as [->|[T ->]]; [left; auto|right; auto].
  - apply once_on. intros. apply once_push.
  - unfold on. destruct (nth_error vs i) as [v|]; [|left; auto]. unfold t_insert_one. destruct (vsize v <? off); [left; auto|].
    destruct (once_insert false v off [s] m) as [->|[T ->]]; [left; auto|right; auto].
  - unfold on. destruct (nth_error vs i) as [v|]; [|left; auto]. unfold t_insert_count. destruct (vsize v <? off); [left; auto|].
    destruct (n =? 0); [left; auto|]. destruct (once_insert false v off (repeat s n) m) as [->|[T ->]]; [left; auto|right; auto].
  - unfold on. destruct (nth_error vs i) as [v|]; [|left; auto]. unfold t_insert_range. destruct (vsize v <? off); [left; auto|].
    destruct ss as [|s ss]; [left; auto|]. destruct (once_insert (ptrs (tick m)) v off (s :: ss) m) as [->|[T ->]]; [left; auto|right; auto].
  - apply once_on. intros. apply once_resize.
  - apply once_on. intros. apply once_assign.
  - apply once_on. intros. apply once_reserve.
  - apply once_on. intros. apply once_shrink.
  - destruct (nth_error vs j) as [w|]; [|left; auto]. apply once_on. intros. apply once_copy_assign.
Qed.
End Alloc.

Section Steps.
Context {V : Type}.
Variable nomem : nat -> bool.
Variable half : nat.
Variable ptrs : nat -> bool.
Notation mem := (@mem V).
Notation nof := (fun _ : nat => false).
Implicit Types (m mt : mem) (vs : list vec) (ls : list (list V)).

Lemma cells_nth : forall (ys : list V) k j, nth_error (somes ys ++ raws k) j =
  if j <? length ys then option_map Some (nth_error ys j) else if j <? length ys + k then Some None else None.
Proof.
  intros ys k j. destruct (Nat.ltb_spec j (length ys)).
  - rewrite nth_error_app1 by (rewrite somes_len; auto). unfold somes. apply nth_error_map.
  - rewrite nth_error_app2 by (rewrite somes_len; auto). rewrite somes_len.
    destruct (Nat.ltb_spec j (length ys + k)).
    + unfold raws. assert (j - length ys < k) by lia. revert H1. generalize (j - length ys). clear.
      induction k; intros [|i] H; cbn; auto; try lia. apply IHk; lia.
    + apply nth_error_None. rewrite raws_len. lia.
Qed.

Lemma tset : forall mt mt' vs ls i v xs b lt' ys, tgood mt vs ls -> nth_error vs i = Some v -> nth_error ls i = Some xs ->
  ptr (vraw v) = Some b -> blk mt' b = Some lt' -> length lt' = cap (vraw v) -> length ys <= cap (vraw v) ->
  (forall j y, nth_error ys j = Some y -> nth_error lt' j = Some (Some y)) ->
  (forall b', b' <> b -> blk mt' b' = blk mt b') -> next mt' = next mt ->
  tgood mt' (upd vs i (Vec (vraw v) (length ys))) (upd ls i ys).
Proof.
  intros mt mt' vs ls i v xs b lt' ys (m & W & R) Hv Hx P B L Ly C O N.
  destruct (Forall2_nth _ _ _ _ _ (proj1 W) Hv) as (xs' & Hx' & [G S]). rewrite Hx in Hx'. injection Hx' as <-.
  unfold good in G. rewrite P in G. destruct G as (Lb & Lc & E).
  exists (Mem (fun b' => if b' =? b then Some (somes ys ++ raws (cap (vraw v) - length ys)) else blk m b') (next m) (tick mt')).
  destruct R as (RN & RT & RB & RF). split.
  - eapply world_upd; [exact W|exact Hv|exact Hx|]. split; auto. cbn [vraw]. split; [|split].
    + unfold good. rewrite P. cbn. rewrite Nat.eqb_refl. auto.
    + split; [cbn; lia|]. split; [|split]; cbn.
      * intros b' H _. destruct (Nat.eqb_spec b' b); [congruence|auto].
      * auto.
      * auto.
    + intros b' H. cbn in *. destruct (Nat.eqb_spec b' b); [lia|auto].
  - split; [cbn; congruence|]. split; [auto|]. split; cbn.
    + intros b'. destruct (Nat.eqb_spec b' b) as [->|Hb].
      * rewrite B. split; [rewrite app_length, somes_len, raws_len; lia|].
        intros j y. rewrite cells_nth. destruct (Nat.ltb_spec j (length ys)).
        -- destruct (nth_error ys j) as [z|] eqn:Ez; cbn; intros H0; [|discriminate]. injection H0 as <-. auto.
        -- destruct (j <? _); discriminate.
      * rewrite O by auto. apply RB.
    + intros b' H. destruct (Nat.eqb_spec b' b); [lia|auto].
Qed.
Lemma tgood_step : forall mt vs ls, tgood mt vs ls -> tgood (step mt) vs ls.
Proof.
  intros mt vs ls (m & W & R). exists (step m). split; [|apply rel_step; auto].
  destruct W as (A & B & C & D). split; [|split; [|split]]; auto.
Qed.
Lemma tgood_get : forall mt vs ls i xs, tgood mt vs ls -> nth_error ls i = Some xs ->
  exists v, nth_error vs i = Some v /\ vsize v = length xs /\ length xs <= cap (vraw v) /\
    match ptr (vraw v) with
    | None => cap (vraw v) = 0 /\ xs = []
    | Some b => exists lt, blk mt b = Some lt /\ length lt = cap (vraw v) /\
        forall j y, nth_error xs j = Some y -> nth_error lt j = Some (Some y)
    end.
Proof.
  intros mt vs ls i xs (m & W & R) Hx. destruct (Forall2_nth_r _ _ _ _ _ (proj1 W) Hx) as (v & Hv & [G S]).
  exists v. split; auto. split; auto. split; [eapply good_cap; eauto|]. unfold good in G. destruct (ptr (vraw v)) as [b|]; auto.
  destruct G as (Lb & Lc & E). destruct (rel_blk _ _ _ _ R E) as (lt & Et & K1 & K2).
  exists lt. split; auto. split. { rewrite K1, app_length, somes_len, raws_len. lia. }
  intros j y Hy. apply K2. rewrite cells_nth. assert (j < length xs) by (apply nth_error_Some; congruence).
  destruct (Nat.ltb_spec j (length xs)); [|lia]. rewrite Hy. auto.
Qed.

Lemma tgood_starved : forall op mt vs ls, tgood mt vs ls -> legal ls op -> tgood (step mt) (starved_vs op vs) (starved op ls).
Proof.
  intros op mt vs ls T L. pose proof (tgood_step mt vs ls T) as T1.
  assert (K : forall i xs, nth_error ls i = Some xs ->
    tgood (step mt) (match nth_error vs i with Some v => upd vs i (Vec (vraw v) 0) | None => vs end) (upd ls i [])).
  { intros i xs Hx. destruct (tgood_get _ _ _ _ _ T1 Hx) as (v & Hv & S & Lc & P). rewrite Hv.
    destruct (ptr (vraw v)) as [b|] eqn:Pb.
    - destruct P as (lt & E & Ll & _). apply (tset (step mt) (step mt) vs ls i v xs b lt []); auto; cbn; try lia.
      intros [|j] y H; discriminate.
    - destruct P as [_ ->]. cbn in S. rewrite upd_same, upd_same; auto. destruct v as [r n]. cbn in *. congruence. }
  inversion L; subst; cbn [starved_vs starved]; eauto.
Qed.

(* every operation *)
Lemma t_exec_spec : forall op mt vs ls, tgood mt vs ls -> legal ls op ->
  match t_exec nomem half ptrs op vs mt with
  | Ok vs' mt' => exists ls', tgood mt' vs' ls' /\ result op ls = Some ls'
  | Exc vs' mt' => exists ls', tgood mt' vs' ls' /\
      ((result op ls = None /\ ls' = ls) \/ (nomem (tick mt) = true /\ ls' = starved op ls))
  | Bad => False
  end.
Proof.
  intros op mt vs ls T L. destruct (once_exec nomem half ptrs op vs mt) as [->|[N ->]].
  - destruct T as (m & W & R). pose proof (sim_exec nof half ptrs op m mt vs ls W L R) as S.
    pose proof (exec_spec nof nof half op m vs ls W L ltac:(auto)) as P. unfold exec_post in P.
    destruct (exec nof nof half op vs m) as [vs1 m1|vs1 m1|]; [| |contradiction]; destruct S as (mt1 & -> & R1).
    + destruct P as (ls' & W' & H). exists ls'. split; auto. exists m1; auto.
    + destruct P as (ls' & W' & H). exists ls'. split; [exists m1; auto|]. left.
      destruct H as [H|[[[t X]|[t X]] _]]; [auto|discriminate|discriminate].
  - exists (starved op ls). split; auto. apply tgood_starved; auto.
Qed.
Lemma t_destruct_all_spec : forall mt vs ls, tgood mt vs ls ->
  exists mt', t_destruct_all vs mt = Ok tt mt' /\ forall b, blk mt' b = None.
Proof.
  intros mt vs ls (m & W & R). destruct (destruct_all_spec vs m ls W) as (m' & E & F).
  assert (S : forall vs m mt, Rel m mt -> sim (destruct_all vs m) (t_destruct_all vs mt)).
  { clear. induction vs as [|v vs IH]; intros m mt R; cbn [destruct_all t_destruct_all]; [cbn; eauto|].
    pose proof (sim_destruct v m mt R) as H. destruct (destruct_vec v m) as [a m1|a m1|]; [| |exact I]; destruct H as (mt1 & -> & R1).
    - cbn [andthen]. auto. - exact I. }
  specialize (S vs m mt R). rewrite E in S. destruct S as (mt' & E' & (_ & _ & RB & _)). exists mt'. split; auto.
  intros b. specialize (RB b). rewrite F in RB. destruct (blk mt' b); [contradiction|auto].
Qed.
Lemma tgood_sees : forall mt vs ls, tgood mt vs ls -> Forall2 (sees mt) vs ls.
Proof.
  intros mt vs ls (m & W & R). eapply Forall2_impl; [|exact (proj1 W)]. intros v xs G.
  destruct (vgood_sees m v xs G) as (A & B & C). split; auto. split; auto. intros k x Hk. destruct (C k x Hk) as (b & Hb & Rd).
  exists b. split; auto. eapply rel_read; eauto.
Qed.

(* ---- the argument is an element of the vector itself ---- *)
Lemma loop_same : forall n b k i x (mt : mem) lt, blk mt b = Some lt -> i + n <= length lt -> k < length lt ->
  nth_error lt k = Some (Some x) ->
  exists mt' lt', t_loop b i (repeat (Ref b k) n) mt = Ok (i + n) mt' /\ blk mt' b = Some lt' /\ length lt' = length lt /\
    (forall j, nth_error lt' j = if (i <=? j) && (j <? i + n) then Some (Some x) else nth_error lt j) /\
    (forall b', b' <> b -> blk mt' b' = blk mt b') /\ next mt' = next mt.
Proof.
  induction n as [|n IH]; intros b k i x mt lt E L Lk K; cbn [repeat t_loop].
  - exists mt, lt. rewrite Nat.add_0_r. repeat split; auto. intros j.
    destruct (Nat.leb_spec i j); destruct (Nat.ltb_spec j i); cbn [andb]; auto; lia.
  - unfold t_construct. rewrite E. cbn [read]. rewrite E, K.
    destruct (nth_error lt i) as [c|] eqn:Ei; [|apply nth_error_None in Ei; lia].
    set (m1 := step (set_blk mt b (Some (put lt i (Some x))))).
    assert (E1 : blk m1 b = Some (put lt i (Some x))) by (cbn; rewrite Nat.eqb_refl; auto).
    destruct (IH b k (S i) x m1 (put lt i (Some x)) E1) as (mt' & lt' & F & E' & L' & P' & O' & N').
    + rewrite put_len; lia.
    + rewrite put_len; auto.
    + rewrite put_nth. destruct (Nat.eqb_spec i k); auto. destruct (Nat.ltb_spec i (length lt)); auto; lia.
    + rewrite F. exists mt', lt'. split; [f_equal; lia|]. split; auto. rewrite put_len in L'. split; auto. split; [|split; auto].
      * intros j. rewrite P', put_nth.
        destruct (Nat.leb_spec (S i) j), (Nat.ltb_spec j (S i + n)), (Nat.leb_spec i j), (Nat.ltb_spec j (i + S n)), (Nat.eqb_spec i j);
          cbn [andb]; auto; try lia.
        destruct (Nat.ltb_spec i (length lt)); auto; lia.
      * intros b' Hb. rewrite O' by auto. cbn. destruct (Nat.eqb_spec b' b); [contradiction|auto].
Qed.

Lemma memmove_nth : forall b first n dst (mt : mem) lt, blk mt b = Some lt -> first + n <= length lt -> dst + n <= length lt ->
  exists mt' lt', memmove b first n b dst mt = Ok (dst + n) mt' /\ blk mt' b = Some lt' /\ length lt' = length lt /\
    (forall j, nth_error lt' j = if (dst <=? j) && (j <? dst + n) then nth_error lt (first + (j - dst)) else nth_error lt j) /\
    (forall b', b' <> b -> blk mt' b' = blk mt b') /\ next mt' = next mt.
Proof.
  intros b first n dst mt lt E L1 L2. unfold memmove. destruct (Nat.eqb_spec n 0) as [->|Hn].
  - exists mt, lt. rewrite Nat.add_0_r. repeat split; auto. intros j.
    destruct (Nat.leb_spec dst j); destruct (Nat.ltb_spec j dst); cbn [andb]; auto; lia.
  - rewrite E. destruct (Nat.leb_spec (first + n) (length lt)); [|lia]. destruct (Nat.leb_spec (dst + n) (length lt)); [|lia]. cbn [andb].
    assert (LG : length (firstn n (skipn first lt)) = n) by (rewrite firstn_length, skipn_length; lia).
    do 2 eexists. split; [reflexivity|]. cbn [blk advance set_blk next]. rewrite Nat.eqb_refl. split; [reflexivity|].
    split; [apply blit_len; lia|]. split; [|split; auto].
    + intros j. rewrite blit_nth by lia. rewrite LG.
      destruct (Nat.leb_spec dst j); destruct (Nat.ltb_spec j (dst + n)); cbn [andb]; auto.
      rewrite nth_firstn by lia. apply nth_skipn.
    + intros b' Hb. destruct (Nat.eqb_spec b' b); [contradiction|auto].
Qed.
(* the right part of the vector moves by n, its old cells keep their values *)
Lemma prepare_in_place : forall r o off n (mt : mem) b lt, ptr r = Some b -> blk mt b = Some lt -> length lt = cap r ->
  o + n <= cap r -> off <= o ->
  exists mt' lt', t_prepare_insert nomem half r o off n 1 mt = Ok (r, 0) mt' /\ blk mt' b = Some lt' /\ length lt' = length lt /\
    (forall j, nth_error lt' j = if (off + n <=? j) && (j <? o + n) then nth_error lt (j - n) else nth_error lt j) /\
    (forall b', b' <> b -> blk mt' b' = blk mt b') /\ next mt' = next mt.
Proof.
  intros r o off n mt b lt P E L C O. unfold t_prepare_insert. cbv zeta. rewrite Nat.mul_1_r.
  destruct (Nat.ltb_spec (cap r) (o + n)); [lia|]. rewrite P.
  destruct (Nat.leb_spec (o - off) n).
  - unfold t_transfer. destruct (Nat.ltb_spec o off); [lia|]. unfold memcpy.
    destruct (memmove_nth b off (o - off) (off + n) mt lt E) as (mt' & lt' & F & E' & L' & P' & O' & N'); [lia|lia|].
    replace ((b =? b) && (off <? off + n + (o - off)) && (off + n <? off + (o - off)) && negb (o - off =? 0)) with false.
    2:{ destruct (Nat.ltb_spec (off + n) (off + (o - off))); [lia|]. rewrite !andb_false_r. auto. }
    rewrite F. cbn [andthen t_destroy]. exists mt', lt'. split; auto. split; auto. split; auto. split; [|split; auto].
    intros j. rewrite P'. destruct (Nat.leb_spec (off + n) j), (Nat.ltb_spec j (off + n + (o - off))), (Nat.ltb_spec j (o + n));
      cbn [andb]; auto; try lia. f_equal; lia.
  - replace (o + n - o) with n by lia. replace (o + n - n) with o by lia.
    unfold t_transfer. destruct (Nat.ltb_spec o (o - n)); [lia|]. replace (o - (o - n)) with n by lia. unfold memcpy.
    destruct (memmove_nth b (o - n) n o mt lt E) as (m1 & l1 & F1 & E1 & L1 & P1 & O1 & N1); [lia|lia|].
    replace ((b =? b) && (o - n <? o + n) && (o <? o - n + n) && negb (n =? 0)) with false.
    2:{ destruct (Nat.ltb_spec o (o - n + n)); [lia|]. rewrite andb_false_r. auto. }
    rewrite F1. unfold t_transfer_right. destruct (Nat.ltb_spec (o - n) off); [lia|].
    destruct (Nat.ltb_spec o (o - n - off)); [lia|]. cbn [orb].
    destruct (memmove_nth b off (o - n - off) (o - (o - n - off)) m1 l1 E1) as (m2 & l2 & F2 & E2 & L2 & P2 & O2 & N2); [lia|lia|].
    rewrite F2. cbn [andthen t_destroy]. exists m2, l2. split; auto. split; auto. split; [lia|]. split; [|split; [|lia]].
    + intros j. rewrite P2, !P1.
      destruct (Nat.leb_spec (o - (o - n - off)) j), (Nat.ltb_spec j (o - (o - n - off) + (o - n - off))), (Nat.leb_spec (off + n) j), (Nat.ltb_spec j (o + n));
        cbn [andb]; try lia;
        repeat match goal with |- context [?a <=? ?c] => destruct (Nat.leb_spec a c) end;
        repeat match goal with |- context [?a <? ?c] => destruct (Nat.ltb_spec a c) end; cbn [andb]; auto; try lia; f_equal; lia.
    + intros b' Hb. rewrite O2, O1; auto.
Qed.

Lemma rep_nth : forall (x : V) n j y, nth_error (repeat x n) j = Some y -> j < n /\ y = x.
Proof.
  intros x n j y H. assert (j < length (repeat x n)) by (apply nth_error_Some; congruence). rewrite repeat_length in *.
  split; auto. apply nth_error_In in H. apply repeat_spec in H. auto.
Qed.
Lemma insert_own_in_place : forall mt vs ls i v xs off n k y, tgood mt vs ls -> nth_error vs i = Some v -> nth_error ls i = Some xs ->
  off <= length xs -> k < length xs -> length xs + n <= cap (vraw v) -> 0 < n -> inserted xs off n k = Some y ->
  exists b, ptr (vraw v) = Some b /\
  exists v' mt', t_insert_srcs nomem half false v off (repeat (Ref b k) n) mt = Ok v' mt' /\
    tgood mt' (upd vs i v') (upd ls i (insert_at off (repeat y n) xs)).
Proof.
  intros mt vs ls i v xs off n k y T Hv Hx Lo Lk Lc Ln Hy.
  destruct (tgood_get _ _ _ _ _ T Hx) as (v1 & Hv1 & S & _ & P). rewrite Hv in Hv1. injection Hv1 as <-.
  destruct (ptr (vraw v)) as [b|] eqn:Pb; [|destruct P as [_ ->]; cbn in Lk; lia]. destruct P as (lt & E & Ll & C).
  exists b. split; auto.
  destruct (prepare_in_place (vraw v) (vsize v) off n mt b lt Pb E Ll) as (m1 & l1 & F1 & E1 & L1 & P1 & O1 & N1); [lia|lia|].
  assert (K : nth_error l1 k = Some (Some y)).
  { rewrite P1. unfold inserted in Hy. destruct (Nat.ltb_spec k (off + n)).
    - destruct (Nat.leb_spec (off + n) k); [lia|]. cbn [andb]. auto.
    - destruct (Nat.leb_spec (off + n) k); [|lia]. destruct (Nat.ltb_spec k (vsize v + n)); [|lia]. cbn [andb]. auto. }
  destruct (loop_same n b k off y m1 l1 E1 ltac:(lia) ltac:(lia) K) as (m2 & l2 & F2 & E2 & L2 & P2 & O2 & N2).
  unfold t_insert_srcs, t_prepare_insert_1. rewrite repeat_length, F1. cbn [vraw]. rewrite Pb.
  assert (CP : t_copy false b off (repeat (Ref b k) n) m1 = t_loop b off (repeat (Ref b k) n) m1) by (destruct n; auto).
  rewrite CP, F2. cbn [vsize]. do 2 eexists. split; [reflexivity|].
  assert (LL : length (insert_at off (repeat y n) xs) = vsize v + n).
  { unfold insert_at. rewrite !app_length, firstn_length, skipn_length, repeat_length. lia. }
  rewrite <- LL. apply (tset mt m2 vs ls i v xs b l2); auto; try lia.
  - intros j z Hz. rewrite P2, P1. unfold insert_at in Hz.
    destruct (Nat.lt_ge_cases j off) as [J|J].
    + rewrite nth_error_app1 in Hz by (rewrite firstn_length; lia).
      assert (Hz' : nth_error xs j = Some z).
      { rewrite <- Hz. symmetry. clear -J. revert xs j J. induction off; intros [|x xs] [|j] J; cbn; auto; try lia. apply IHoff; lia. }
      destruct (Nat.leb_spec off j); [lia|]. cbn [andb]. destruct (Nat.leb_spec (off + n) j); [lia|]. cbn [andb]. auto.
    + rewrite nth_error_app2 in Hz by (rewrite firstn_length; lia). rewrite firstn_length, Nat.min_l in Hz by lia.
      destruct (Nat.lt_ge_cases j (off + n)) as [J2|J2].
      * rewrite nth_error_app1 in Hz by (rewrite repeat_length; lia). apply rep_nth in Hz. destruct Hz as [_ ->].
        destruct (Nat.leb_spec off j); [|lia]. destruct (Nat.ltb_spec j (off + n)); [|lia]. auto.
      * rewrite nth_error_app2 in Hz by (rewrite repeat_length; lia). rewrite repeat_length in Hz.
        assert (Hz' : nth_error xs (j - n) = Some z).
        { rewrite <- Hz. replace (j - n) with (off + (j - off - n)) by lia. generalize (j - off - n). clear.
          revert xs. induction off; intros xs q; cbn; auto. destruct xs; cbn; auto. destruct q; auto. }
        assert (j - n < length xs) by (apply nth_error_Some; congruence).
        destruct (Nat.leb_spec off j); [|lia]. destruct (Nat.ltb_spec j (off + n)); [lia|]. cbn [andb].
        destruct (Nat.leb_spec (off + n) j); [|lia]. destruct (Nat.ltb_spec j (vsize v + n)); [|lia]. cbn [andb]. auto.
  - intros b' Hb. rewrite O2, O1; auto.
Qed.

Lemma assign_own : forall mt vs ls i v xs n k x, tgood mt vs ls -> nth_error vs i = Some v -> nth_error ls i = Some xs ->
  nth_error xs k = Some x -> n <= cap (vraw v) ->
  exists b, ptr (vraw v) = Some b /\
  exists v' mt', t_assign nomem half v n (Ref b k) mt = Ok v' mt' /\ tgood mt' (upd vs i v') (upd ls i (repeat x n)).
Proof.
  intros mt vs ls i v xs n k x T Hv Hx Hk Lc. assert (Lk : k < length xs) by (apply nth_error_Some; congruence).
  destruct (tgood_get _ _ _ _ _ T Hx) as (v1 & Hv1 & S & Lx & P). rewrite Hv in Hv1. injection Hv1 as <-.
  destruct (ptr (vraw v)) as [b|] eqn:Pb; [|destruct P as [_ ->]; cbn in Lk; lia]. destruct P as (lt & E & Ll & C).
  exists b. split; auto.
  destruct (loop_same n b k 0 x mt lt E ltac:(lia) ltac:(lia) (C _ _ Hk)) as (m2 & l2 & F2 & E2 & L2 & P2 & O2 & N2).
  unfold t_assign, t_raw_assign. destruct (Nat.leb_spec n (cap (vraw v))); [|lia]. destruct (Nat.eqb_spec (cap (vraw v)) 0); [lia|].
  cbn [andb negb]. rewrite Pb. cbn [andthen t_destroy]. unfold t_fill. destruct (Nat.ltb_spec n 0); [lia|]. rewrite Nat.sub_0_r, F2.
  do 2 eexists. split; [reflexivity|]. rewrite <- (repeat_length x n) at 1. apply (tset mt m2 vs ls i v xs b l2); auto; try lia.
  - rewrite repeat_length; auto.
  - intros j y Hj. apply rep_nth in Hj. destruct Hj as [J ->]. rewrite P2. cbn [Nat.leb Nat.add].
    destruct (Nat.ltb_spec j n); [auto|lia].
Qed.
End Steps.

Section Whole.
Context {V : Type}.
Variable nomem : nat -> bool.
Variable half : nat.
Variable ptrs : nat -> bool.
Notation mem := (@mem V).
Notation nof := (fun _ : nat => false).
Implicit Types (m mt : mem) (vs : list vec) (ls : list (list V)).

Lemma assign_own_any : forall mt vs ls i n k xs x, tgood mt vs ls -> nth_error ls i = Some xs -> nth_error xs k = Some x ->
  match t_exec nof half ptrs (Assign i n (Elem i k)) vs mt with
  | Ok vs' mt' => tgood mt' vs' (upd ls i (repeat x n))
  | _ => False
  end.
Proof.
  intros mt vs ls i n k xs x T Hx Hk. assert (Lk : k < length xs) by (apply nth_error_Some; congruence).
  destruct (tgood_get _ _ _ _ _ T Hx) as (v & Hv & S & _ & _).
  cbn [t_exec]. unfold with_src, resolve, on. rewrite Hv, S. destruct (Nat.ltb_spec k (length xs)); [|lia].
  destruct (Nat.le_gt_cases n (cap (vraw v))) as [C|C].
  - destruct (assign_own nof half mt vs ls i v xs n k x T Hv Hx Hk C) as (b & -> & v' & mt' & E & T'). cbn [option_map]. rewrite E. auto.
  - destruct T as (m & W & R). destruct (Forall2_nth_r _ _ _ _ _ (proj1 W) Hx) as (v1 & Hv1 & G). rewrite Hv in Hv1. injection Hv1 as <-.
    destruct (alias_read m v xs k x G Hk) as (b & Hb & Rd). rewrite Hb. cbn [option_map].
    pose proof (assign_spec_v nof nof half m v xs n (Ref b k) x G (proj1 (proj2 W)) Rd ltac:(lia)) as P.
    pose proof (sim_assign nof half v n (Ref b k) m mt R) as Q.
    destruct (assign nof nof half v n (Ref b k) m) as [v' m'|v' m'|]; [| |contradiction].
    + destruct Q as (mt' & -> & R'). exists m'. split; auto. eapply world_upd; eauto.
    + destruct P as [_ [[t X]|[t X]]]; discriminate.
Qed.
Lemma t_exec_full : forall op mt vs ls, tgood mt vs ls -> t_legal ls op ->
  match t_exec nomem half ptrs op vs mt with
  | Ok vs' mt' => exists ls', tgood mt' vs' ls' /\ result op ls = Some ls'
  | Exc vs' mt' => exists ls', tgood mt' vs' ls' /\
      ((result op ls = None /\ ls' = ls) \/ (nomem (tick mt) = true /\ ls' = starved op ls))
  | Bad => False
  end.
Proof.
  intros op mt vs ls T [L|(i & n & k & xs & x & -> & Hx & Hk)]; [apply t_exec_spec; auto|].
  destruct (once_exec nomem half ptrs (Assign i n (Elem i k)) vs mt) as [->|[N ->]].
  - pose proof (assign_own_any mt vs ls i n k xs x T Hx Hk) as P.
    destruct (t_exec nof half ptrs (Assign i n (Elem i k)) vs mt) as [vs' mt'|vs' mt'|]; try contradiction.
    exists (upd ls i (repeat x n)). split; auto. cbn. rewrite Hx, Hk. f_equal. f_equal. clear. induction n; cbn; auto. f_equal; auto.
  - exists ls. split; [apply tgood_step; auto|]. right. auto.
Qed.

(* the element is read after its block was freed *)
Lemma memcpy_noexc : forall bs f n b d mt, match memcpy bs f n b d mt with Exc _ _ => False | _ => True end.
Proof.
  intros. unfold memcpy, memmove. destruct (_ && _); auto. destruct (n =? 0); auto.
  destruct (blk mt bs); auto. destruct (blk mt b); auto. destruct (_ && _); auto.
Qed.
Lemma drop_frees : forall r o mt u mt' b, t_drop_old r o mt = Ok u mt' -> ptr r = Some b -> blk mt' b = None.
Proof.
  intros r o mt u mt' b H P. unfold t_drop_old in H. rewrite P in H. cbn [andthen t_destroy] in H. unfold t_deallocate in H.
  destruct (blk mt b); [|discriminate]. destruct (_ =? _); [|discriminate]. injection H as <- <-. cbn. rewrite Nat.eqb_refl. auto.
Qed.
Lemma freed_bad : forall nb off b k n mt, 0 < n -> blk mt b = None -> t_loop nb off (repeat (Ref b k) n) mt = Bad.
Proof.
  intros nb off b k n mt L E. destruct n; [lia|]. cbn [repeat t_loop]. unfold t_construct. cbn [read]. rewrite E.
  destruct (blk mt nb); auto. destruct (nth_error l off); auto.
Qed.
Lemma insert_own_full : forall v off n k b mt, ptr (vraw v) = Some b -> 0 < n -> cap (vraw v) < vsize v + n ->
  t_insert_srcs nof half false v off (repeat (Ref b k) n) mt = Bad.
Proof.
  intros v off n k b mt P L C. unfold t_insert_srcs, t_prepare_insert_1, t_prepare_insert. cbv zeta.
  rewrite repeat_length, Nat.mul_1_r. destruct (Nat.ltb_spec (cap (vraw v)) (vsize v + n)); [|lia].
  unfold allocate. cbv beta iota. rewrite P.
  set (m1 := Mem _ _ _). unfold t_transfer.
  destruct (off <? 0); [auto|].
  match goal with |- context [memcpy ?x ?f ?q ?y ?d ?z] => pose proof (memcpy_noexc x f q y d z); destruct (memcpy x f q y d z) as [d1 m2|d1 m2|] end; [|contradiction|auto].
  destruct (vsize v <? off); [auto|].
  match goal with |- context [memcpy ?x ?f ?q ?y ?d ?z] => pose proof (memcpy_noexc x f q y d z); destruct (memcpy x f q y d z) as [d2 m3|d2 m3|] end; [|contradiction|auto].
  destruct (t_drop_old (vraw v) (vsize v) m3) as [u m4|u m4|] eqn:D; cbn [andthen]; [|auto|auto].
  cbn [vraw ptr].
  assert (CP : t_copy false (next mt) off (repeat (Ref b k) n) m4 = t_loop (next mt) off (repeat (Ref b k) n) m4) by (destruct n; auto).
  rewrite CP, freed_bad; auto. eapply drop_frees; eauto.
Qed.
Lemma push_own_full : forall v k b mt, ptr (vraw v) = Some b -> vsize v = cap (vraw v) ->
  t_push_back nof half v (Ref b k) mt = Bad.
Proof.
  intros v k b mt P C. unfold t_push_back, t_prepare_push_back. destruct (Nat.ltb_spec (cap (vraw v)) (S (vsize v))); [|lia].
  unfold t_relocate, allocate. cbv beta iota. rewrite P. unfold t_transfer. destruct (vsize v <? 0); [auto|].
  match goal with |- context [memcpy ?x ?f ?q ?y ?d ?z] => pose proof (memcpy_noexc x f q y d z); destruct (memcpy x f q y d z) as [d1 m2|d1 m2|] end; [|contradiction|auto].
  destruct (t_drop_old (vraw v) (vsize v) m2) as [u m4|u m4|] eqn:D; cbn [andthen]; [|auto|auto]. cbn [ptr].
  unfold t_construct. cbn [read]. rewrite (drop_frees _ _ _ _ _ _ D P). destruct (blk m4 (next mt)); auto. destruct (nth_error l (vsize v)); auto.
Qed.
Lemma push_own_in_place : forall mt vs ls i v xs k x, tgood mt vs ls -> nth_error vs i = Some v -> nth_error ls i = Some xs ->
  nth_error xs k = Some x -> vsize v < cap (vraw v) ->
  match t_exec nof half ptrs (PushBack i (Elem i k)) vs mt with
  | Ok vs' mt' => tgood mt' vs' (upd ls i (xs ++ [x]))
  | _ => False
  end.
Proof.
  intros mt vs ls i v xs k x (m & W & R) Hv Hx Hk C. assert (Lk : k < length xs) by (apply nth_error_Some; congruence).
  destruct (Forall2_nth_r _ _ _ _ _ (proj1 W) Hx) as (v1 & Hv1 & G). rewrite Hv in Hv1. injection Hv1 as <-.
  destruct (alias_read m v xs k x G Hk) as (b & Hb & Rd).
  cbn [t_exec]. unfold with_src, resolve, on. rewrite Hv. rewrite (proj2 G) in *. destruct (Nat.ltb_spec k (length xs)); [|lia].
  rewrite Hb. cbn [option_map].
  pose proof (push_alias_in_place nof nof half m v xs k x b G (proj1 (proj2 W)) Hk Hb C) as P.
  pose proof (sim_push_back nof half v (Ref b k) m mt R (wgood_mine _ _ _ _ _ W Hv)) as Q.
  destruct (push_back nof nof half v (Ref b k) m) as [v' m'|v' m'|]; [| |contradiction].
  - destruct Q as (mt' & -> & R'). exists m'. split; auto. eapply world_upd; eauto.
  - destruct P as [_ [[t X]|[t X]]]; discriminate.
Qed.
End Whole.
