(* Proofs about dynamic_array. *)
From Coq Require Import List Bool Arith Lia.
From Verif Require Import LifeModel DynModel DynSpec.
Import ListNotations.

Section Proofs.
Context {V : Type}.
Variable zero : V.
Variable std_alloc : nat.
Variables propagates_move propagates_swap : bool.
Notation world := (dworld V).
Notation arr := (arr V).
Notation state := (state V).

Lemma upd_same {A} (f : nat -> A) i x : upd f i x i = x.
Proof. unfold upd. rewrite Nat.eqb_refl. reflexivity. Qed.
Lemma upd_other {A} (f : nat -> A) i x k : k <> i -> upd f i x k = f k.
Proof. intros H. unfold upd. apply Nat.eqb_neq in H. rewrite H. reflexivity. Qed.

(* sums over the variables *)
Lemma total_ext (f : option arr -> nat) (s s' : state) n : (forall k, k < n -> f (var s k) = f (var s' k)) -> total f s n = total f s' n.
Proof. induction n as [|n IH]; intros H; cbn; [reflexivity|]. rewrite IH, (H n) by auto. reflexivity. Qed.
Lemma total_more (f : option arr -> nat) (s : state) n m : f None = 0 -> (forall i, n <= i -> var s i = None) -> n <= m -> total f s m = total f s n.
Proof. intros Z H L. induction L as [|m L IH]; cbn; [reflexivity|]. rewrite IH, H, Z by assumption. lia. Qed.
Lemma total_any (f : option arr -> nat) (s : state) n m : f None = 0 -> (forall i, n <= i -> var s i = None) -> (forall i, m <= i -> var s i = None) ->
  total f s n = total f s m.
Proof. intros Z H K. destruct (Nat.le_ge_cases n m) as [L|L]; [symmetry|]; apply total_more; assumption. Qed.
Lemma total_put (f : option arr -> nat) (s : state) i x n : i < n -> total f (put s i x) n + f (var s i) = total f s n + f x.
Proof.
  revert i. induction n as [|n IH]; intros i L; [lia|]. cbn [total]. destruct (Nat.eq_dec i n) as [->|D].
  - rewrite (total_ext f (put s n x) s n).
    + cbn [put var]. rewrite Nat.eqb_refl. lia.
    + intros k K. cbn [put var]. destruct (Nat.eqb_spec k n); [lia|reflexivity].
  - specialize (IH i). cbn [put var]. destruct (Nat.eqb_spec n i); [congruence|]. lia.
Qed.

(* the model's fields for an expected array with block b *)
Definition fld (b : nat) (a : arr) : fields :=
  MkFields (al a) (sz a) (match elems a with Some _ => Some b | None => None end).
Definition places (a : arr) (l : list V) : nat * list (option V) :=
  (al a, map Some l ++ repeat None (sz a - length l)).
Definition has (st : state) (i : nat) (a : arr) (l : list V) : Prop := var st i = Some a /\ elems a = Some l.

Definition counts (w : world) (st : state) : Prop :=
  exists n, (forall i, n <= i -> var st i = None) /\
    made w = unmade w + total holds st n + list_sum (map (@length V) (stray st)) /\
    obtained w = returned w + total owns st n + length (stray st).

Definition Rf (w : world) (st : state) (f : nat -> nat) : Prop :=
  (forall i, arrays w i = option_map (fld (f i)) (var st i)) /\
  (forall i a l, has st i a l -> blocks w (f i) = Some (places a l) /\ length l <= sz a /\ f i < fresh w) /\
  (forall i j a b l m, has st i a l -> has st j b m -> f i = f j -> i = j) /\
  counts w st.

Definition R (w : world) (st : state) : Prop := exists f, Rf w st f.

Lemma R_start oracle : R (dstart oracle) nothing.
Proof.
  exists (fun _ => 0). split; [reflexivity|]. split; [intros i a l [H _]; discriminate|]. split; [intros i j a b l m [H _]; discriminate|].
  exists 0. cbn. auto.
Qed.

Lemma R_same w (st st' : state) : R w st -> same st' st -> R w st'.
Proof.
  intros [f [A [B [C [n [D [E F]]]]]]] [S T]. exists f.
  assert (X : forall i a l, has st' i a l -> has st i a l) by (intros i a l [G H]; split; [rewrite <- S|]; assumption).
  split; [intros i; rewrite S; apply A|]. split; [intros; apply B, X; assumption|].
  split; [intros i j a b l m G H; eapply C; eauto|].
  exists n. split; [intros i L; rewrite S; apply D, L|].
  rewrite T, (total_ext holds st' st n), (total_ext owns st' st n) by (intros k _; rewrite S; reflexivity). auto.
Qed.

(* worlds that look alike *)
Lemma R_wext (w w' : world) (st : state) : R w st -> (forall i, arrays w' i = arrays w i) -> (forall b, blocks w' b = blocks w b) ->
  fresh w' = fresh w -> obtained w' = obtained w -> returned w' = returned w -> made w' = made w -> unmade w' = unmade w -> R w' st.
Proof.
  intros [f [A [B [C [n [D [E F]]]]]]] X Y Z P Q S T. exists f. split; [intros i; rewrite X; apply A|].
  split; [intros i a l H; rewrite Y, Z; apply (B i a l H)|]. split; [assumption|].
  exists n. rewrite P, Q, S, T. auto.
Qed.

(* one variable changes *)
Lemma R_change w w' (st : state) f i x (s' : list (list V)) b :
  Rf w st f ->
  (forall k, arrays w' k = upd (arrays w) i (option_map (fld b) x) k) ->
  fresh w <= fresh w' ->
  (forall k a l, k <> i -> has st k a l -> blocks w' (f k) = blocks w (f k)) ->
  (forall a l, x = Some a -> elems a = Some l -> blocks w' b = Some (places a l) /\ length l <= sz a /\ b < fresh w' /\
     forall k c m, k <> i -> has st k c m -> f k <> b) ->
  made w' + unmade w + holds (var st i) + list_sum (map (@length V) (stray st)) =
    made w + unmade w' + holds x + list_sum (map (@length V) s') ->
  obtained w' + returned w + owns (var st i) + length (stray st) = obtained w + returned w' + owns x + length s' ->
  Rf w' (MkState (var (put st i x)) s') (upd f i b).
Proof.
  intros [A [B [C [n [D [E F]]]]]] X Y Z P Q SQ.
  assert (G : forall k a l, has (MkState (var (put st i x)) s') k a l -> k <> i -> has st k a l).
  { intros k a l [H1 H2] N. cbn in H1. destruct (Nat.eqb_spec k i); [contradiction|]. split; assumption. }
  assert (H : forall a l, has (MkState (var (put st i x)) s') i a l -> x = Some a /\ elems a = Some l).
  { intros a l [H1 H2]. cbn in H1. rewrite Nat.eqb_refl in H1. auto. }
  split; [|split; [|split]].
  - intros k. rewrite X. cbn [put var]. destruct (Nat.eqb_spec k i) as [->|N].
    + rewrite !upd_same. reflexivity.
    + rewrite !upd_other by assumption. apply A.
  - intros k a l K. destruct (Nat.eq_dec k i) as [->|N].
    + destruct (H a l K) as [H1 H2]. rewrite upd_same. destruct (P a l H1 H2) as [P1 [P2 [P3 _]]]. auto.
    + apply G in K; [|assumption]. rewrite upd_other by assumption. rewrite (Z k a l N K).
      destruct (B k a l K) as [B1 [B2 B3]]. split; [assumption|]. split; [assumption|lia].
  - intros k j a c l m K J U. destruct (Nat.eq_dec k i) as [->|N], (Nat.eq_dec j i) as [->|O]; [reflexivity| | |].
    + apply G in J; [|assumption]. destruct (H a l K) as [H1 H2]. rewrite upd_same, upd_other in U by assumption.
      destruct (P a l H1 H2) as [_ [_ [_ P4]]]. exfalso. apply (P4 j c m O J). congruence.
    + apply G in K; [|assumption]. destruct (H c m J) as [H1 H2]. rewrite upd_same, upd_other in U by assumption.
      destruct (P c m H1 H2) as [_ [_ [_ P4]]]. exfalso. apply (P4 k a l N K). congruence.
    + apply G in K; [|assumption]. apply G in J; [|assumption]. rewrite !upd_other in U by assumption. exact (C k j a c l m K J U).
  - exists (S (n + i)). split.
    + intros k L. cbn [put var]. destruct (Nat.eqb_spec k i); [lia|]. apply D. lia.
    + cbn [stray]. rewrite (total_ext holds (MkState (var (put st i x)) s') (put st i x)) by reflexivity.
      rewrite (total_ext owns (MkState (var (put st i x)) s') (put st i x)) by reflexivity.
      pose proof (total_put holds st i x (S (n + i)) ltac:(lia)). pose proof (total_put owns st i x (S (n + i)) ltac:(lia)).
      rewrite (total_more holds st n (S (n + i))) in * by (first [reflexivity|assumption|lia]).
      rewrite (total_more owns st n (S (n + i))) in * by (first [reflexivity|assumption|lia]). lia.
Qed.

(* what building and destroying does to one block *)
Definition touched (b : nat) (c : nat * list (option V)) (dm du : nat) (w w' : world) : Prop :=
  blocks w' b = Some c /\ (forall k, k <> b -> blocks w' k = blocks w k) /\ fresh w' = fresh w /\ arrays w' = arrays w /\
  obtained w' = obtained w /\ returned w' = returned w /\ made w' = made w + dm /\ unmade w' = unmade w + du.

Lemma touched_trans b c c' dm du dm' du' (w1 w2 w3 : world) :
  touched b c dm du w1 w2 -> touched b c' dm' du' w2 w3 -> touched b c' (dm + dm') (du + du') w1 w3.
Proof.
  intros [A1 [A2 [A3 [A4 [A5 [A6 [A7 A8]]]]]]] [B1 [B2 [B3 [B4 [B5 [B6 [B7 B8]]]]]]].
  split; [assumption|]. split; [intros k K; rewrite B2, A2 by assumption; reflexivity|].
  repeat split; try congruence; lia.
Qed.

Lemma poke_app (l : list (option V)) x m y k : k = length l -> poke (l ++ x :: m) k y = l ++ y :: m.
Proof. intros ->. induction l as [|z l IH]; cbn; [reflexivity|]. rewrite IH. reflexivity. Qed.
Lemma nth_app_len {A} (l : list A) x m k : k = length l -> nth_error (l ++ x :: m) k = Some x.
Proof. intros ->. induction l as [|z l IH]; cbn; [reflexivity|assumption]. Qed.

Lemma make_all_run b a (vs : list V) : forall l (w : world),
  blocks w b = Some (a, map Some l ++ repeat None (length vs)) ->
  (exists w', make_all b (length l) vs w = Done tt w' /\ touched b (a, map Some (l ++ vs)) (length vs) 0 w w' /\
     (fails w = [] -> fails w' = [])) \/
  (exists w' k, make_all b (length l) vs w = Threw w' /\ k < length vs /\ fails w <> [] /\
     touched b (a, map Some (l ++ firstn k vs) ++ repeat None (length vs - k)) k 0 w w').
Proof.
  induction vs as [|v vs IH]; intros l w H; cbn [make_all length].
  - left. exists w. split; [reflexivity|]. split; [|auto]. cbn in H. rewrite app_nil_r in *. repeat split; auto.
  - assert (K : (exists ls, fails w = true :: ls) \/
      exists ls, (fails w = [] -> ls = []) /\ (ls <> [] -> fails w <> []) /\
        make b (length l) v w = Done tt (MkDyn (upd (blocks w) b (Some (a, map Some (l ++ [v]) ++ repeat None (length vs)))) (fresh w) (arrays w)
                      (obtained w) (returned w) (S (made w)) (unmade w) ls)).
    { cbn [length repeat] in H.
      assert (P : nth_error (map Some l ++ None :: repeat None (length vs)) (length l) = Some None) by (apply nth_app_len; rewrite map_length; reflexivity).
      assert (Q : poke (map Some l ++ None :: repeat None (length vs)) (length l) (Some v) = map Some (l ++ [v]) ++ repeat None (length vs)).
      { rewrite poke_app by (rewrite map_length; reflexivity). rewrite map_app, <- app_assoc. reflexivity. }
      unfold make, dbind, next_fails. destruct (fails w) as [|[] ls] eqn:F.
      - right. exists []. rewrite H, P, Q, F. auto.
      - left. exists ls. reflexivity.
      - right. exists ls. cbn [blocks]. rewrite H, P, Q. cbn [fresh arrays obtained returned made unmade fails].
        split; [discriminate|]. split; [discriminate|reflexivity]. }
    destruct K as [[ls K]|[ls [K1 [K2 K3]]]].
    + right. eexists. exists 0. split; [|split; [lia|split; [rewrite K; discriminate|]]].
      * unfold dbind at 1. unfold make, dbind, next_fails. rewrite K. reflexivity.
      * cbn [firstn]. rewrite app_nil_r, Nat.sub_0_r. unfold touched. cbn [blocks fresh arrays obtained returned made unmade].
        repeat split; auto.
    + unfold dbind. rewrite K3. set (w1 := MkDyn _ _ _ _ _ _ _ _).
      assert (T : touched b (a, map Some (l ++ [v]) ++ repeat None (length vs)) 1 0 w w1).
      { unfold touched, w1. cbn [blocks fresh arrays obtained returned made unmade]. rewrite upd_same.
        split; [reflexivity|]. split; [intros k N; apply upd_other; assumption|]. repeat split; lia. }
      destruct (IH (l ++ [v]) w1 (proj1 T)) as [[w' [E [U W]]]|[w' [k [E [L [U W]]]]]];
        rewrite app_length in E; cbn [length] in E; rewrite Nat.add_1_r in E.
      * left. exists w'. split; [exact E|]. split.
        -- replace (S (length vs)) with (1 + length vs) by reflexivity. rewrite <- app_assoc in U. apply (touched_trans _ _ _ _ _ _ _ _ _ _ T U).
        -- intros F. apply W. apply K1. assumption.
      * right. exists w', (S k). split; [exact E|]. split; [lia|]. split; [apply K2; exact U|].
        rewrite <- app_assoc in W. apply (touched_trans _ _ _ _ _ _ _ _ _ _ T W).
Qed.

Lemma unmake_all_run b a (l : list V) : forall m (w : world),
  blocks w b = Some (a, map Some l ++ repeat None m) ->
  exists w', unmake_all b (length l) w = Done tt w' /\ touched b (a, repeat None (length l + m)) 0 (length l) w w' /\ fails w' = fails w.
Proof.
  induction l as [|v l IH] using rev_ind; intros m w H.
  - exists w. cbn in *. split; [reflexivity|]. split; [|reflexivity]. repeat split; auto.
  - rewrite app_length. cbn [length]. rewrite Nat.add_1_r. cbn [unmake_all].
    rewrite map_app, <- app_assoc in H. cbn [map app] in H.
    unfold dbind, unmake. rewrite H.
    rewrite nth_app_len by (rewrite map_length; reflexivity). rewrite poke_app by (rewrite map_length; reflexivity).
    set (w1 := MkDyn _ _ _ _ _ _ _ _).
    assert (T : touched b (a, map Some l ++ repeat None (S m)) 0 1 w w1).
    { unfold touched, w1. cbn [blocks fresh arrays obtained returned made unmade]. rewrite upd_same.
      split; [reflexivity|]. split; [intros k N; apply upd_other; assumption|]. repeat split; lia. }
    destruct (IH (S m) w1 (proj1 T)) as [w' [E [U W]]].
    exists w'. split; [exact E|]. split; [|exact W].
    replace (S (length l) + m) with (length l + S m) by lia. apply (touched_trans _ _ _ _ _ _ _ _ _ _ T U).
Qed.

Ltac red1 := cbn [blocks fresh arrays obtained returned made unmade fails].

Lemma R_look w (st : state) f i a : Rf w st f -> var st i = Some a -> arrays w i = Some (fld (f i) a).
Proof. intros [A _] H. rewrite A, H. reflexivity. Qed.

Lemma put_self (st : state) i x : var st i = x -> same (put st i x) st.
Proof. intros H. split; [|reflexivity]. intros k. cbn. destruct (Nat.eqb_spec k i); congruence. Qed.
Lemma put_put (st : state) i x y : same (put (put st i x) i y) (put st i y).
Proof. split; [|reflexivity]. intros k. cbn. destruct (k =? i); reflexivity. Qed.

(* _destroy *)
Lemma destroy_run w (st : state) i a : R w st -> var st i = Some a -> whole a ->
  exists w', destroy_all i w = Done tt w' /\ R w' (put st i (Some (emptied a))) /\ fails w' = fails w.
Proof.
  intros [f H] I W. pose proof (R_look w st f i a H I) as L. destruct (elems a) as [l|] eqn:E.
  - assert (P : has st i a l) by (split; assumption). destruct H as [HA [HB [HC HD]]] eqn:HH. clear HH.
    destruct (HB i a l P) as [B1 [B2 B3]]. unfold whole in W. rewrite E in W.
    unfold places in B1. destruct (unmake_all_run (f i) (al a) l _ w B1) as [w1 [U1 [U2 U3]]].
    unfold destroy_all, dbind at 1, fields_of. rewrite L. unfold fld. cbn [m_data m_size m_allocator]. rewrite E.
    unfold dbind at 1. rewrite <- W, U1. destruct U2 as [T1 [T2 [T3 [T4 [T5 [T6 [T7 T8]]]]]]].
    unfold dbind, give_back. rewrite T1, Nat.eqb_refl, repeat_length, W, Nat.sub_diag, Nat.add_0_r, Nat.eqb_refl. cbn [andb].
    unfold put_fields. red1. eexists. split; [reflexivity|]. split; [|exact U3].
    exists (upd f i 0).
    change (put st i (Some (emptied a))) with (MkState (var (put st i (Some (emptied a)))) (stray st)).
    eapply (R_change w _ st f i (Some (emptied a)) (stray st) 0 H); red1.
    + intros k. rewrite T4. unfold emptied. rewrite E. cbn. unfold upd. destruct (k =? i); reflexivity.
    + lia.
    + intros k c m N K. destruct (Nat.eq_dec (f k) (f i)) as [G|G].
      * exfalso. apply N. exact (HC k i c a m l K P G).
      * rewrite upd_other by assumption. apply T2. assumption.
    + intros c m J. injection J as <-. unfold emptied. rewrite E. cbn. discriminate.
    + rewrite I. unfold emptied. cbn [holds]. rewrite !E. cbn [elems]. lia.
    + rewrite I. unfold emptied. cbn [owns]. rewrite !E. cbn [elems]. lia.
  - unfold destroy_all, dbind, fields_of. rewrite L. unfold fld. cbn [m_data]. rewrite E. exists w. split; [reflexivity|].
    split; [|reflexivity]. apply (R_same w st); [exists f; assumption|]. apply put_self. rewrite I. unfold emptied. rewrite E. reflexivity.
Qed.

(* _allocate and _construct *)
Lemma build_run w (st : state) i a (vs : list V) : R w st -> var st i = Some a -> elems a = None ->
  let m := dbind (allocate i (length vs)) (fun _ => construct_all i vs) in
  (exists w', m w = Done tt w' /\ R w' (put st i (Some (Arr (al a) (length vs) (Some vs)))) /\ (fails w = [] -> fails w' = [])) \/
  (exists w', m w = Threw w' /\ R w' (put st i (Some (Arr (al a) (length vs) None))) /\ fails w <> []) \/
  (exists w' k, m w = Threw w' /\ k < length vs /\ R w' (put st i (Some (Arr (al a) (length vs) (Some (firstn k vs))))) /\ fails w <> []).
Proof.
  intros [f H] I E m. pose proof (R_look w st f i a H I) as L.
  assert (K : (exists ls, fails w = true :: ls) \/ exists ls, (fails w = [] -> ls = []) /\ (ls <> [] -> fails w <> []) /\
     allocate i (length vs) w = Done tt (MkDyn (upd (blocks w) (fresh w) (Some (al a, repeat None (length vs)))) (S (fresh w))
        (upd (upd (arrays w) i (Some (MkFields (al a) (length vs) None))) i (Some (MkFields (al a) (length vs) (Some (fresh w)))))
        (S (obtained w)) (returned w) (made w) (unmade w) ls)).
  { unfold allocate, dbind, fields_of, put_fields, next_fails, obtain. rewrite L. red1. unfold fld. cbn [m_allocator m_data]. rewrite E.
    destruct (fails w) as [|[] ls] eqn:F.
    - right. exists []. auto.
    - left. exists ls. reflexivity.
    - right. exists ls. repeat split; discriminate. }
  destruct K as [[ls K]|[ls [K1 [K2 K3]]]].
  - right. left. unfold m, dbind at 1, allocate, dbind, fields_of, put_fields, next_fails. rewrite L. red1. rewrite K.
    eexists. split; [reflexivity|]. split; [|congruence]. exists (upd f i 0).
    change (put st i ?x) with (MkState (var (put st i x)) (stray st)).
    apply (R_change w _ st f i _ (stray st) 0 H); red1; try lia.
    + intros k. unfold fld. cbn. rewrite E. reflexivity.
    + reflexivity.
    + intros c l J. injection J as <-. discriminate.
    + rewrite I. cbn. rewrite E. reflexivity.
    + rewrite I. cbn. rewrite E. reflexivity.
  - match type of K3 with _ = Done tt ?x => set (w1 := x) in * end.
    assert (M : m w = make_all (fresh w) 0 vs w1).
    { unfold m, dbind. rewrite K3. unfold construct_all, dbind, fields_of, w1. red1. rewrite upd_same. reflexivity. }
    rewrite M.
    assert (B : blocks w1 (fresh w) = Some (al a, map Some [] ++ repeat None (length vs))) by (unfold w1; red1; rewrite upd_same; reflexivity).
    assert (G : forall w' l d, touched (fresh w) (al a, map Some l ++ repeat None d) (length l) 0 w1 w' -> length l + d = length vs ->
      R w' (put st i (Some (Arr (al a) (length vs) (Some l))))).
    { intros w' l d [T1 [T2 [T3 [T4 [T5 [T6 [T7 T8]]]]]]] D. exists (upd f i (fresh w)).
      change (put st i ?x) with (MkState (var (put st i x)) (stray st)).
      apply (R_change w _ st f i _ (stray st) (fresh w) H).
      - intros k. rewrite T4. unfold w1, upd, fld. cbn. destruct (k =? i); reflexivity.
      - rewrite T3. unfold w1. red1. lia.
      - intros k c l' N P. destruct H as [HA [HB [HC HD]]]. destruct (HB k c l' P) as [_ [_ H3]].
        rewrite T2 by lia. unfold w1. red1. apply upd_other. lia.
      - intros c l' J Q. injection J as <-. cbn [elems] in Q. injection Q as <-. unfold places. cbn [al sz]. rewrite T1.
        split; [do 4 f_equal; lia|]. split; [lia|]. split; [rewrite T3; unfold w1; red1; lia|].
        intros k c' l' N P. destruct H as [HA [HB [HC HD]]]. destruct (HB k c' l' P) as [_ [_ H3]]. lia.
      - rewrite I, T7, T8. unfold w1. red1. cbn. rewrite E. lia.
      - rewrite I, T5, T6. unfold w1. red1. cbn. rewrite E. lia. }
    destruct (make_all_run (fresh w) (al a) vs [] w1 B) as [[w' [M1 [M2 M3]]]|[w' [k [M1 [M2 [M3 M4]]]]]].
    + left. exists w'. split; [exact M1|]. split.
      * apply (G w' vs 0); [|lia]. cbn [app repeat] in *. rewrite app_nil_r. exact M2.
      * intros F. apply M3. unfold w1. red1. apply K1, F.
    + right. right. exists w', k. split; [exact M1|]. split; [exact M2|]. split.
      * apply (G w' (firstn k vs) (length vs - k)); rewrite firstn_length, Nat.min_l by lia; [exact M4|lia].
      * apply K2. exact M3.
Qed.

Lemma sum_cons (l : list V) s : list_sum (map (@length V) (l :: s)) = length l + list_sum (map (@length V) s).
Proof. reflexivity. Qed.

(* only the oracle, or a variable without memory, changes *)
Lemma R_drop w (st : state) i : R w st ->
  R (MkDyn (blocks w) (fresh w) (upd (arrays w) i None) (obtained w) (returned w) (made w) (unmade w) (fails w))
    (abandon (put st i None) (match var st i with Some a => elems a | None => None end)).
Proof.
  intros [f H]. exists (upd f i 0). apply (R_change w _ st f i None _ 0 H); red1; try lia.
  - reflexivity.
  - reflexivity.
  - discriminate.
  - destruct (var st i) as [a|]; cbn [holds owns put stray]; [destruct (elems a); rewrite ?sum_cons; cbn [length]; lia|lia].
  - destruct (var st i) as [a|]; cbn [holds owns put stray]; [destruct (elems a); rewrite ?sum_cons; cbn [length]; lia|lia].
Qed.

Lemma R_blank w (st : state) i a s : R w st -> owns (var st i) = 0 ->
  R (MkDyn (blocks w) (fresh w) (upd (arrays w) i (Some (MkFields a s None))) (obtained w) (returned w) (made w) (unmade w) (fails w))
    (put st i (Some (Arr a s None))).
Proof.
  intros [f H] O. exists (upd f i 0). change (put st i ?x) with (MkState (var (put st i x)) (stray st)).
  assert (P : holds (var st i) = 0) by (destruct (var st i) as [b|]; cbn in *; [destruct (elems b); cbn in *; lia|reflexivity]).
  apply (R_change w _ st f i _ (stray st) 0 H); red1; try lia.
  - reflexivity.
  - reflexivity.
  - intros c l J. injection J as <-. discriminate.
  - rewrite P. cbn. lia.
  - rewrite O. cbn. lia.
Qed.

Lemma R_swap w (st : state) i j : R w st ->
  R (MkDyn (blocks w) (fresh w) (upd (upd (arrays w) i (arrays w j)) j (arrays w i)) (obtained w) (returned w) (made w) (unmade w) (fails w))
    (put (put st i (var st j)) j (var st i)).
Proof.
  intros [f [A [B [C [n [D [E F]]]]]]]. exists (upd (upd f i (f j)) j (f i)).
  set (t := fun k => if k =? j then i else if k =? i then j else k).
  assert (T : forall k, upd (upd f i (f j)) j (f i) k = f (t k)).
  { intros k. unfold upd, t. destruct (k =? j); [reflexivity|]. destruct (k =? i); reflexivity. }
  assert (S : forall k, var (put (put st i (var st j)) j (var st i)) k = var st (t k)).
  { intros k. cbn. unfold t. destruct (k =? j); [reflexivity|]. destruct (k =? i); reflexivity. }
  assert (J : forall k k', t k = t k' -> k = k').
  { intros k k'. unfold t. destruct (Nat.eqb_spec k j), (Nat.eqb_spec k' j), (Nat.eqb_spec k i), (Nat.eqb_spec k' i); intros; subst; congruence. }
  assert (P : forall k a l, has (put (put st i (var st j)) j (var st i)) k a l -> has st (t k) a l) by (intros k a l [P1 P2]; rewrite S in P1; split; assumption).
  split; [|split; [|split]].
  - intros k. rewrite S, T. red1. rewrite <- A. unfold upd, t. destruct (k =? j); [reflexivity|]. destruct (k =? i); reflexivity.
  - intros k a l H. rewrite T. red1. exact (B _ a l (P k a l H)).
  - intros k k' a b l m K K' Q. rewrite !T in Q. apply J. exact (C _ _ a b l m (P _ _ _ K) (P _ _ _ K') Q).
  - exists (Datatypes.S (n + i + j)). split.
    + intros k L. rewrite S. unfold t. destruct (Nat.eqb_spec k j); [lia|]. destruct (Nat.eqb_spec k i); [lia|]. apply D. lia.
    + red1. cbn [stray put].
      pose proof (total_put holds st i (var st j) (Datatypes.S (n + i + j)) ltac:(lia)).
      pose proof (total_put owns st i (var st j) (Datatypes.S (n + i + j)) ltac:(lia)).
      pose proof (total_put holds (put st i (var st j)) j (var st i) (Datatypes.S (n + i + j)) ltac:(lia)) as X1.
      pose proof (total_put owns (put st i (var st j)) j (var st i) (Datatypes.S (n + i + j)) ltac:(lia)) as X2.
      assert (Y : var (put st i (var st j)) j = var st j) by (cbn; destruct (Nat.eqb_spec j i) as [->|]; reflexivity).
      rewrite Y in X1, X2.
      rewrite (total_more holds st n (Datatypes.S (n + i + j))) in * by (first [reflexivity|assumption|lia]).
      rewrite (total_more owns st n (Datatypes.S (n + i + j))) in * by (first [reflexivity|assumption|lia]). lia.
Qed.

Notation exec := (exec zero std_alloc propagates_move propagates_swap).
Notation step := (step zero std_alloc propagates_move propagates_swap).
Notation legal := (legal propagates_swap).
Notation must_throw := (must_throw std_alloc propagates_move).
Notation effect := (effect zero).
Notation failure := (failure zero).
Notation builds := (builds zero).

Definition works (o : op V) (st : state) (w : world) : Prop :=
  exists w' st', step o st w w' st' /\ R w' st' /\ (fails w = [] -> fails w' = []).

Lemma same_refl (st : state) : same st st.
Proof. split; reflexivity. Qed.

Lemma works_done o (st st' : state) w w' :
  exec o w = Done tt w' -> R w' st' -> same (effect o st) st' -> ~ must_throw o st -> (fails w = [] -> fails w' = []) -> works o st w.
Proof.
  intros E H S N F. exists w', (effect o st). split; [left; split; [exact E|split; [apply same_refl|exact N]]|].
  split; [exact (R_same _ _ _ H S)|exact F].
Qed.

Lemma works_refused o (st st' : state) w w' :
  exec o w = Threw w' -> R w' st' -> same st st' -> must_throw o st -> (fails w = [] -> fails w' = []) -> works o st w.
Proof.
  intros E H S N F. exists w', st. split; [right; split; [exact E|left; split; [exact N|apply same_refl]]|].
  split; [exact (R_same _ _ _ H S)|exact F].
Qed.

Lemma works_failed o (st st' st1 : state) w w' :
  exec o w = Threw w' -> R w' st' -> same st1 st' -> failure o st st1 -> fails w <> [] -> works o st w.
Proof.
  intros E H S N F. exists w', st1. split; [right; split; [exact E|right; split; [exact F|exists st1; split; [exact N|apply same_refl]]]|].
  split; [exact (R_same _ _ _ H S)|contradiction].
Qed.

Lemma look_none w (st : state) i : R w st -> var st i = None -> arrays w i = None.
Proof. intros [f [A _]] H. rewrite A, H. reflexivity. Qed.

Lemma same_drop (st : state) i x y : var st i = None -> same (abandon st y) (abandon (put (put st i x) i None) y).
Proof.
  intros H. split; [|reflexivity]. intros k. cbn. destruct (Nat.eqb_spec k i) as [->|]; [assumption|reflexivity].
Qed.

(* constructors that build elements *)
Lemma w_build o i a (vs : list V) w (st : state) : R w st -> var st i = None ->
  (forall x, exec o x = born i a (dbind (allocate i (length vs)) (fun _ => construct_all i vs)) x) ->
  effect o st = put st i (Some (Arr a (length vs) (Some vs))) ->
  ~ must_throw o st ->
  (forall st1, (st1 = st \/ exists k, k < length vs /\ st1 = abandon st (Some (firstn k vs))) -> failure o st st1) ->
  works o st w.
Proof.
  intros H N E F M G. pose proof (look_none w st i H N) as L.
  assert (H0 : R (MkDyn (blocks w) (fresh w) (upd (arrays w) i (Some (MkFields a 0 None))) (obtained w) (returned w) (made w) (unmade w) (fails w))
                 (put st i (Some (Arr a 0 None)))) by (apply R_blank; [assumption|rewrite N; reflexivity]).
  specialize (E w). unfold born in E. rewrite L in E. unfold dbind at 1 in E. unfold put_fields at 1 in E.
  assert (V0 : var (put st i (Some (Arr a 0 None))) i = Some (Arr a 0 None)) by (cbn; rewrite Nat.eqb_refl; reflexivity).
  destruct (build_run _ _ i _ vs H0 V0 eq_refl) as [[w' [B1 [B2 B3]]]|[[w' [B1 [B2 B3]]]|[w' [k [B1 [B4 [B2 B3]]]]]]];
    rewrite B1 in E; cbn [al] in B2.
  - eapply works_done; [exact E|exact B2| |exact M|exact B3]. rewrite F. split; [|reflexivity]. intros k. cbn. destruct (k =? i); reflexivity.
  - eapply (works_failed _ _ _ st); [exact E|apply (R_drop _ _ i B2)| |apply G; left; reflexivity|exact B3].
    cbn [put var]. rewrite Nat.eqb_refl. cbn [elems]. split; [|reflexivity]. intros k. cbn. destruct (Nat.eqb_spec k i) as [->|]; [assumption|reflexivity].
  - eapply (works_failed _ _ _ (abandon st (Some (firstn k vs)))); [exact E|apply (R_drop _ _ i B2)| |apply G; right; exists k; auto|exact B3].
    cbn [put var]. rewrite Nat.eqb_refl. cbn [elems]. split; [|reflexivity]. intros q. cbn. destruct (Nat.eqb_spec q i) as [->|]; [assumption|reflexivity].
Qed.

(* assign and resize *)
Lemma w_rebuild o i a (vs : list V) w (st : state) : R w st -> var st i = Some a -> whole a ->
  (forall x, exec o x = dbind (destroy_all i) (fun _ => dbind (allocate i (length vs)) (fun _ => construct_all i vs)) x) ->
  effect o st = put st i (Some (Arr (al a) (length vs) (Some vs))) ->
  ~ must_throw o st ->
  (forall st1, (st1 = put st i (Some (Arr (al a) (length vs) None)) \/ exists k, k < length vs /\ st1 = put st i (Some (Arr (al a) (length vs) (Some (firstn k vs))))) ->
     failure o st st1) ->
  works o st w.
Proof.
  intros H N W E F M G. destruct (destroy_run w st i a H N W) as [w1 [D1 [D2 D3]]].
  specialize (E w). unfold dbind at 1 in E. rewrite D1 in E.
  assert (V0 : var (put st i (Some (emptied a))) i = Some (emptied a)) by (cbn; rewrite Nat.eqb_refl; reflexivity).
  assert (V1 : elems (emptied a) = None) by (unfold emptied; destruct (elems a) eqn:Q; [reflexivity|exact Q]).
  assert (V2 : al (emptied a) = al a) by (unfold emptied; destruct (elems a); reflexivity).
  assert (P : forall x, same (put st i x) (put (put st i (Some (emptied a))) i x)).
  { intros x. split; [|reflexivity]. intros k. cbn. destruct (k =? i); reflexivity. }
  destruct (build_run _ _ i _ vs D2 V0 V1) as [[w' [B1 [B2 B3]]]|[[w' [B1 [B2 B3]]]|[w' [k [B1 [B4 [B2 B3]]]]]]];
    rewrite B1 in E; rewrite V2 in B2; rewrite D3 in B3.
  - eapply works_done; [exact E|exact B2| |exact M|exact B3]. rewrite F. apply P.
  - eapply works_failed; [exact E|exact B2|apply P|apply G; left; reflexivity|exact B3].
  - eapply works_failed; [exact E|exact B2|apply P|apply G; right; exists k; auto|exact B3].
Qed.

(* _move_assign *)
Lemma take_run w (st : state) p i j a b : R w st -> var st i = Some a -> var st j = Some b -> i <> j ->
  p || (al a =? al b) = true ->
  exists w', take p i j w = Done tt w' /\
    R w' (abandon (put (put st i (Some b)) j (Some (Arr (al b) 0 None))) (elems a)) /\ fails w' = fails w.
Proof.
  intros H A B N P.
  assert (F : exists f, arrays w i = Some (fld (f i) a) /\ arrays w j = Some (fld (f j) b)).
  { destruct H as [f H]. exists f. split; eapply R_look; eassumption. }
  destruct F as [f [FA FB]].
  eexists. split.
  - unfold take, dbind, fields_of. rewrite FA, FB. cbn [fld m_allocator]. rewrite P. unfold put_fields. red1.
    rewrite upd_other by congruence. rewrite FB. reflexivity.
  - split; [|reflexivity]. red1. pose proof (R_drop w st i H) as H1. rewrite A in H1.
    apply (R_blank _ _ i (al b) 0) in H1; [|cbn; rewrite Nat.eqb_refl; reflexivity].
    apply (R_swap _ _ i j) in H1. cbn [blocks fresh arrays obtained returned made unmade fails] in H1.
    eapply R_wext; [eapply R_same; [exact H1|]|..]; red1; try reflexivity.
    + split; [|reflexivity]. intros k. cbn. destruct (Nat.eqb_spec k j) as [->|].
      * rewrite Nat.eqb_refl. reflexivity.
      * destruct (Nat.eqb_spec k i) as [->|]; [|reflexivity]. destruct (Nat.eqb_spec j i); [congruence|]. symmetry. assumption.
    + intros k. unfold upd. destruct (Nat.eqb_spec k j) as [->|].
      * rewrite Nat.eqb_refl. reflexivity.
      * destruct (Nat.eqb_spec k i) as [->|]; [|reflexivity]. destruct (Nat.eqb_spec j i); [congruence|]. rewrite FB. reflexivity.
Qed.

Lemma take_refused w (st : state) i j a b : R w st -> var st i = Some a -> var st j = Some b -> al a <> al b ->
  take false i j w = Threw w.
Proof.
  intros [f H] A B N. unfold take, dbind, fields_of. rewrite (R_look w st f i a H A), (R_look w st f j b H B).
  cbn [fld m_allocator]. apply Nat.eqb_neq in N. rewrite N. reflexivity.
Qed.

Lemma w_New i a w (st : state) : R w st -> legal (New i a) st -> works (New i a) st w.
Proof.
  intros H L. cbn in L. eapply works_done; [cbn [DynModel.exec]; unfold born; rewrite (look_none w st i H L); reflexivity| |apply same_refl|intros []|auto].
  red1. cbn [DynSpec.effect]. apply R_blank; [assumption|rewrite L; reflexivity].
Qed.

Lemma w_NewMove i j w (st : state) : R w st -> legal (NewMove i j) st -> works (NewMove i j) st w.
Proof.
  intros H [N J]. pose proof (look_none w st i H N) as L. destruct (var st j) as [b|] eqn:B; [|contradiction].
  assert (D : i <> j) by congruence.
  assert (H0 : R (MkDyn (blocks w) (fresh w) (upd (arrays w) i (Some (MkFields std_alloc 0 None))) (obtained w) (returned w) (made w) (unmade w) (fails w))
                 (put st i (Some (Arr std_alloc 0 None)))) by (apply R_blank; [assumption|rewrite N; reflexivity]).
  assert (V0 : var (put st i (Some (Arr std_alloc 0 None))) i = Some (Arr std_alloc 0 None)) by (cbn; rewrite Nat.eqb_refl; reflexivity).
  assert (V1 : var (put st i (Some (Arr std_alloc 0 None))) j = Some b) by (cbn; destruct (Nat.eqb_spec j i); [congruence|assumption]).
  destruct (propagates_move || (std_alloc =? al b)) eqn:P.
  - destruct (take_run _ _ propagates_move i j _ b H0 V0 V1 D P) as [w' [T1 [T2 T3]]].
    eapply works_done; [|exact T2| | |intros F; rewrite T3; exact F].
    + cbn [DynModel.exec]. unfold born. rewrite L. unfold dbind at 1. unfold put_fields at 1. rewrite T1. reflexivity.
    + cbn [DynSpec.effect]. rewrite B. split; [|reflexivity]. intros k. cbn.
      destruct (Nat.eqb_spec k i) as [->|]; [|reflexivity]. destruct (Nat.eqb_spec i j); [congruence|reflexivity].
    + intros [M [b' [M1 M2]]]. apply orb_true_iff in P. destruct P as [P|P]; [congruence|]. apply Nat.eqb_eq in P. congruence.
  - apply orb_false_iff in P. destruct P as [P1 P2]. apply Nat.eqb_neq in P2.
    pose proof (take_refused _ _ i j _ b H0 V0 V1 P2) as T.
    eapply works_refused; [|apply (R_drop _ _ i H0)| | |].
    + cbn [DynModel.exec]. unfold born. rewrite L, P1. unfold dbind at 1. unfold put_fields at 1. rewrite T. reflexivity.
    + cbn [put var]. rewrite Nat.eqb_refl. cbn [elems]. split; [|reflexivity]. intros k. cbn. destruct (Nat.eqb_spec k i) as [->|]; [assumption|reflexivity].
    + split; [assumption|]. exists b. split; [assumption|congruence].
    + auto.
Qed.

Lemma w_AssignMove i j w (st : state) : R w st -> legal (AssignMove i j) st -> works (AssignMove i j) st w.
Proof.
  intros H [I J]. destruct (var st i) as [a|] eqn:A; [|contradiction]. destruct (var st j) as [b|] eqn:B; [|contradiction].
  destruct (Nat.eq_dec i j) as [->|D].
  - eapply works_done; [cbn [DynModel.exec]; rewrite Nat.eqb_refl; reflexivity|exact H| | |auto].
    + cbn [DynSpec.effect]. rewrite Nat.eqb_refl. apply same_refl.
    + intros [_ [M _]]. congruence.
  - assert (Q : (i =? j) = false) by (apply Nat.eqb_neq; assumption).
    destruct (propagates_move || (al a =? al b)) eqn:P.
    + destruct (take_run _ _ propagates_move i j a b H A B D P) as [w' [T1 [T2 T3]]].
      eapply works_done; [cbn [DynModel.exec]; rewrite Q; exact T1|exact T2| | |congruence].
      * cbn [DynSpec.effect]. rewrite Q, A, B. apply same_refl.
      * intros [M [_ [a' [b' [M1 [M2 M3]]]]]]. apply orb_true_iff in P. destruct P as [P|P]; [congruence|]. apply Nat.eqb_eq in P. congruence.
    + apply orb_false_iff in P. destruct P as [P1 P2]. apply Nat.eqb_neq in P2.
      eapply works_refused; [cbn [DynModel.exec]; rewrite Q, P1; exact (take_refused _ _ i j _ b H A B P2)|exact H|apply same_refl| |auto].
      split; [assumption|]. split; [assumption|]. exists a, b. auto.
Qed.

Lemma w_Delete i w (st : state) : R w st -> legal (Delete i) st -> works (Delete i) st w.
Proof.
  intros H [a [A W]]. destruct (destroy_run w st i a H A W) as [w1 [D1 [D2 D3]]].
  assert (V1 : elems (emptied a) = None) by (unfold emptied; destruct (elems a) eqn:Q; [reflexivity|exact Q]).
  pose proof (R_drop _ _ i D2) as X. cbn [put var] in X. rewrite Nat.eqb_refl, V1 in X.
  eapply works_done; [cbn [DynModel.exec]; unfold dbind; rewrite D1; reflexivity|exact X| |intros []|cbn; congruence].
  split; [|reflexivity]. intros k. cbn. destruct (k =? i); reflexivity.
Qed.

Lemma w_Clear i w (st : state) : R w st -> legal (Clear i) st -> works (Clear i) st w.
Proof.
  intros H [a [A W]]. destruct (destroy_run w st i a H A W) as [w1 [D1 [D2 D3]]].
  eapply works_done; [exact D1|exact D2| |intros []|congruence]. cbn [DynSpec.effect]. rewrite A. apply same_refl.
Qed.

Lemma w_Swap i j w (st : state) : R w st -> legal (Swap i j) st -> works (Swap i j) st w.
Proof.
  intros H [P [I J]]. destruct (var st i) as [a|] eqn:A; [|contradiction]. destruct (var st j) as [b|] eqn:B; [|contradiction].
  assert (F : exists f, arrays w i = Some (fld (f i) a) /\ arrays w j = Some (fld (f j) b)).
  { destruct H as [f H]. exists f. split; eapply R_look; eassumption. }
  destruct F as [f [FA FB]]. destruct (Nat.eq_dec i j) as [->|D].
  - eapply works_done; [cbn [DynModel.exec]; rewrite P, Nat.eqb_refl; reflexivity|exact H| |intros []|auto].
    split; [|reflexivity]. intros k. cbn. destruct (Nat.eqb_spec k j) as [->|]; reflexivity.
  - pose proof (R_swap w st i j H) as X. rewrite FA, FB in X. apply Nat.eqb_neq in D.
    eapply works_done; [cbn [DynModel.exec]; rewrite P, D; unfold dbind, fields_of, put_fields; rewrite FA, FB; reflexivity|exact X| |intros []|auto].
    split; [|reflexivity]. intros k. cbn. apply Nat.eqb_neq in D.
    destruct (Nat.eqb_spec k i), (Nat.eqb_spec k j); congruence.
Qed.

Lemma poke_length {A} (l : list A) k x : length (poke l k x) = length l.
Proof. revert k. induction l as [|y l IH]; intros [|k]; cbn; auto. Qed.
Lemma poke_map_app (l : list V) m k v : k < length l -> poke (map Some l ++ m) k (Some v) = map Some (poke l k v) ++ m.
Proof. revert k. induction l as [|y l IH]; intros [|k] L; cbn in *; [lia|lia|reflexivity|]. rewrite IH by lia. reflexivity. Qed.
Lemma nth_map_app (l : list V) m k v : nth_error l k = Some v -> nth_error (map Some l ++ m) k = Some (Some v).
Proof. revert k. induction l as [|y l IH]; intros [|k] L; cbn in *; [discriminate|discriminate|congruence|apply IH; assumption]. Qed.

Lemma w_Write i k v w (st : state) : R w st -> legal (Write i k v) st -> works (Write i k v) st w.
Proof.
  intros [f H] [a [l [A [E L]]]]. pose proof (R_look w st f i a H A) as FA. pose proof H as [HA [HB [HC HD]]].
  assert (P : has st i a l) by (split; assumption). destruct (HB i a l P) as [B1 [B2 B3]].
  destruct (nth_error l k) as [u|] eqn:U; [|apply nth_error_None in U; lia].
  eapply (works_done _ _ (put st i (Some (Arr (al a) (sz a) (Some (poke l k v)))))).
  - cbn [DynModel.exec]. unfold dbind at 1. unfold fields_of. rewrite FA. unfold fld. cbn [m_data]. rewrite E.
    unfold scribble, dbind, peek. rewrite B1. unfold places. rewrite (nth_map_app l _ k u U). rewrite B1. unfold places.
    rewrite poke_map_app by assumption. reflexivity.
  - unfold set_blocks. exists (upd f i (f i)). change (put st i ?x) with (MkState (var (put st i x)) (stray st)).
    apply (R_change w _ st f i _ (stray st) (f i) H); red1; try lia.
    + intros q. unfold upd. destruct (Nat.eqb_spec q i) as [->|]; [|reflexivity]. rewrite FA. unfold fld. rewrite E. reflexivity.
    + intros q c m N Q. apply upd_other. intros G. apply N. exact (HC q i c a m l Q P G).
    + intros c m J Q. injection J as <-. cbn in Q. injection Q as <-. rewrite upd_same. unfold places. cbn [al sz]. rewrite poke_length.
      split; [reflexivity|]. split; [assumption|]. split; [assumption|]. intros q c m N Q G. apply N. exact (HC q i c a m l Q P G).
    + rewrite A. cbn. rewrite E, poke_length. lia.
    + rewrite A. cbn. rewrite E. lia.
  - cbn [DynSpec.effect]. rewrite A, E. apply same_refl.
  - intros [].
  - auto.
Qed.

Theorem every_step_works o w (st : state) : R w st -> legal o st -> works o st w.
Proof.
  intros H L. destruct o.
  - apply w_New; assumption.
  - apply (w_build (NewSize i n a) i a (repeat zero n)); [assumption|assumption| | |intros []|].
    + intros x. rewrite repeat_length. reflexivity.
    + reflexivity.
    + intros st1 G. exact G.
  - apply (w_build (NewValue i n v a) i a (repeat v n)); [assumption|assumption| | |intros []|].
    + intros x. rewrite repeat_length. reflexivity.
    + reflexivity.
    + intros st1 G. exact G.
  - apply (w_build (NewList i l a) i a l); [assumption|assumption|reflexivity|reflexivity|intros []|]. intros st1 G. exact G.
  - apply w_NewMove; assumption.
  - apply w_Delete; assumption.
  - apply w_AssignMove; assumption.
  - destruct L.
  - apply w_Swap; assumption.
  - destruct L as [a [A W]]. apply (w_rebuild (Assign i n v) i a (repeat v n)); [assumption|assumption|assumption| | |intros []|].
    + intros x. rewrite repeat_length. reflexivity.
    + cbn [DynSpec.effect DynSpec.builds]. rewrite A. reflexivity.
    + intros st1 G. exists a. split; [assumption|exact G].
  - destruct L.
  - destruct L as [a [A W]]. apply (w_rebuild (Resize i n) i a (repeat zero n)); [assumption|assumption|assumption| | |intros []|].
    + intros x. rewrite repeat_length. reflexivity.
    + cbn [DynSpec.effect DynSpec.builds]. rewrite A. reflexivity.
    + intros st1 G. exists a. split; [assumption|exact G].
  - apply w_Clear; assumption.
  - apply w_Write; assumption.
Qed.

Lemma R_seen w (st : state) : R w st -> seen w st.
Proof.
  intros [f H] i a A. pose proof (R_look w st f i a H A) as FA. destruct H as [HA [HB _]].
  assert (IX : forall l k v, elems a = Some l -> nth_error l k = Some v -> index i k w = Done v w).
  { intros l k v E N. destruct (HB i a l (conj A E)) as [B1 [B2 B3]].
    unfold index, dbind, fields_of. rewrite FA. unfold fld. cbn [m_data]. rewrite E. unfold peek. rewrite B1. unfold places.
    rewrite (nth_map_app l _ k v N). reflexivity. }
  split; [|split; [|split; [|split; [|split; [|split]]]]].
  - unfold size, dbind, fields_of. rewrite FA. reflexivity.
  - unfold empty, size, dbind, fields_of. rewrite FA. reflexivity.
  - unfold get_allocator, dbind, fields_of. rewrite FA. reflexivity.
  - intros k L. unfold at_, dbind, fields_of. rewrite FA. cbn [fld m_size]. apply Nat.leb_le in L. rewrite L. reflexivity.
  - intros l E. destruct (HB i a l (conj A E)) as [B1 [B2 B3]]. split; [assumption|]. intros k v N. split; [apply (IX l); assumption|].
    unfold at_, dbind at 1, fields_of. rewrite FA. cbn [fld m_size].
    assert (K : k < length l) by (apply nth_error_Some; congruence). destruct (Nat.leb_spec (sz a) k); [lia|]. apply (IX l); assumption.
  - intros l v E. apply (IX (v :: l)); [assumption|reflexivity].
  - intros l v E W. unfold whole in W. rewrite E, app_length in W. cbn in W. unfold back, dbind at 1, fields_of. rewrite FA. cbn [fld m_size].
    apply (IX (l ++ [v])); [assumption|]. apply nth_app_len. lia.
Qed.

Lemma R_balanced w (st : state) : R w st -> balanced w st.
Proof.
  intros [f [A [B [C [n [D [E F]]]]]]]. split.
  - intros i j g h b I J G K. rewrite A in I, J. destruct (var st i) as [x|] eqn:X; [|discriminate]. destruct (var st j) as [y|] eqn:Y; [|discriminate].
    cbn in I, J. injection I as <-. injection J as <-. unfold fld in G, K. cbn in G, K.
    destruct (elems x) as [l|] eqn:L; [|discriminate]. destruct (elems y) as [m|] eqn:M; [|discriminate].
    apply (C i j x y l m); [split; assumption|split; assumption|congruence].
  - intros m H. rewrite (total_any holds st m n), (total_any owns st m n) by (first [reflexivity|assumption]). auto.
Qed.

Theorem simulation :
  exists Rel : world -> state -> Prop,
    (forall oracle, Rel (dstart oracle) nothing) /\
    (forall (w : world) (st : state) (o : op V), Rel w st -> legal o st -> exists w' st', step o st w w' st' /\ Rel w' st') /\
    (forall (w : world) (st : state), Rel w st -> seen w st /\ balanced w st).
Proof.
  exists R. split; [exact R_start|]. split.
  - intros w st o H L. destruct (every_step_works o w st H L) as [w' [st' [A [B _]]]]. exists w', st'. auto.
  - intros w st H. split; [apply R_seen|apply R_balanced]; assumption.
Qed.

Theorem histories (l : list (op V)) (st : state) :
  follows zero std_alloc propagates_move propagates_swap l nothing st ->
  exists w, run zero std_alloc propagates_move propagates_swap l (dstart []) = Some w /\ seen w st /\ balanced w st.
Proof.
  enough (G : forall st0 st, follows zero std_alloc propagates_move propagates_swap l st0 st -> forall (w : world), R w st0 -> fails w = [] ->
    exists w', run zero std_alloc propagates_move propagates_swap l w = Some w' /\ R w' st).
  { intros L. destruct (G _ _ L _ (R_start []) eq_refl) as [w [A B]]. exists w. split; [assumption|].
    split; [apply R_seen|apply R_balanced]; assumption. }
  assert (SY : forall s s' : state, same s s' -> same s' s) by (intros s s' [P Q]; split; [intros; symmetry; apply P|symmetry; assumption]).
  clear st. induction 1 as [st|o l st st' L N _ IH|o l st st' L N _ IH]; intros w H T; cbn [run].
  - exists w. split; [reflexivity|assumption].
  - destruct (every_step_works o w st H L) as [w' [st2 [A [B C]]]].
    destruct A as [[A1 [A2 A3]]|[A1 [[A2 A3]|[A2 A3]]]]; [|contradiction|contradiction].
    rewrite A1. apply IH; [|auto]. apply (R_same _ _ _ B). apply SY. exact A2.
  - destruct (every_step_works o w st H L) as [w' [st2 [A [B C]]]].
    destruct A as [[A1 [A2 A3]]|[A1 [[A2 A3]|[A2 A3]]]]; [contradiction| |contradiction].
    rewrite A1. apply IH; [|auto]. apply (R_same _ _ _ B). apply SY. exact A3.
Qed.
End Proofs.
