(* Proofs about any. *)
From Coq Require Import List Bool Arith Lia.
From Verif Require Import LifeModel LifeProofs AnyModel AnySpec.
Import ListNotations.

Section Proofs.
Context {V : Type}.
Variable copyable : nat -> bool.

Local Notation world := (aworld V).
Local Notation state := (state V).

Lemma clone_ok_copy (x : val V) : clone_ok copyable x = true <-> can_copy copyable x.
Proof.
  split.
  - revert x. fix F 1. intros [t v|[y|]] H.
    + apply copy_plain. exact H.
    + apply copy_inner. apply F. exact H.
    + apply copy_inner_empty.
  - induction 1; cbn; assumption || reflexivity.
Qed.

Definition fullb (x : option (option (val V))) : bool := match x with Some (Some _) => true | _ => false end.

Lemma full_b (st : state) i : full_in st i <-> fullb (st i) = true.
Proof.
  unfold full_in. destruct (st i) as [[v|]|]; cbn; split; try discriminate; eauto; intros [v' E]; discriminate.
Qed.

(* f i is the address of the holder of i *)
Definition Rf (f : nat -> nat) (w : world) (st : state) : Prop :=
  (forall i, anys w i = option_map (option_map (fun _ => f i)) (st i)) /\
  (forall i x, st i = Some (Some x) -> heap w (f i) = Some x /\ f i < next w) /\
  (forall i j, full_in st i -> full_in st j -> f i = f j -> i = j) /\
  (forall a, heap w a <> None -> exists i, full_in st i /\ f i = a) /\
  (exists n, counted (fun i => fullb (st i)) n /\ allocs w = frees w + n).

Definition R (w : world) (st : state) : Prop := exists f, Rf f w st.

Lemma R_start oracle : R (astart oracle) nothing.
Proof.
  exists (fun _ => 0). split; [reflexivity|]. split; [intros i x H; discriminate|].
  split; [intros i j [x H]; discriminate|]. split; [intros a H; exfalso; apply H; reflexivity|].
  exists 0. split; [exact counted_none|reflexivity].
Qed.

Lemma R_ext w (st st' : state) : R w st -> (forall k, st k = st' k) -> R w st'.
Proof.
  intros [f [A [B [C [D [n [E F]]]]]]] X. exists f. split; [intros i; rewrite <- X; apply A|].
  split; [intros i x; rewrite <- X; apply B|]. split; [|split].
  - intros i j. unfold full_in. rewrite <- !X. apply C.
  - intros a H. destruct (D a H) as [i [[x I] J]]. exists i. split; [exists x; rewrite <- X; assumption|assumption].
  - exists n. split; [|assumption]. apply (counted_ext _ _ _ E). intros i. rewrite X. reflexivity.
Qed.

Lemma put_same (st : state) i x : put st i x i = x.
Proof. unfold put. rewrite Nat.eqb_refl. reflexivity. Qed.
Lemma put_other (st : state) i x k : k <> i -> put st i x k = st k.
Proof. unfold put. intros H. apply Nat.eqb_neq in H. rewrite H. reflexivity. Qed.

(* ---- the elementary changes ---- *)

Definition with_anys (w : world) (g : nat -> option (option nat)) : world :=
  MkAny (heap w) (next w) g (allocs w) (frees w) (athrows w).

Lemma upd_same {A} (g : nat -> A) i x : upd g i x i = x.
Proof. unfold upd. rewrite Nat.eqb_refl. reflexivity. Qed.
Lemma upd_other {A} (g : nat -> A) i x k : k <> i -> upd g i x k = g k.
Proof. unfold upd. intros H. apply Nat.eqb_neq in H. rewrite H. reflexivity. Qed.

(* a new holder for an i without one *)
Lemma R_fill w (st : state) i x l : R w st -> fullb (st i) = false ->
  R (MkAny (upd (heap w) (next w) (Some x)) (S (next w)) (upd (anys w) i (Some (Some (next w)))) (S (allocs w)) (frees w) l)
    (put st i (Some (Some x))).
Proof.
  intros [f [A [B [C [D [n [E F]]]]]]] N. exists (upd f i (next w)). unfold Rf. cbn [anys heap next allocs frees].
  assert (FO : forall k, k <> i -> full_in (put st i (Some (Some x))) k -> full_in st k /\ f k < next w).
  { intros k K [y Y]. rewrite put_other in Y by assumption. split; [exists y; assumption|]. apply (B k y Y). }
  split; [|split; [|split; [|split]]].
  - intros k. destruct (Nat.eq_dec k i) as [->|K].
    + rewrite !upd_same, put_same. reflexivity.
    + rewrite !upd_other, put_other by assumption. apply A.
  - intros k y. destruct (Nat.eq_dec k i) as [->|K].
    + rewrite put_same, !upd_same. intros [= <-]. split; [reflexivity|lia].
    + rewrite put_other by assumption. intros Y. destruct (B k y Y) as [B1 B2].
      rewrite (upd_other f) by assumption. rewrite upd_other by lia. split; [assumption|lia].
  - intros k m K M. destruct (Nat.eq_dec k i) as [->|Ki], (Nat.eq_dec m i) as [->|Mi]; auto.
    + rewrite upd_same, upd_other by assumption. intros G. destruct (FO m Mi M). lia.
    + rewrite upd_same, upd_other by assumption. intros G. destruct (FO k Ki K). lia.
    + rewrite !upd_other by assumption. apply C; [apply FO|apply FO]; assumption.
  - intros a. destruct (Nat.eq_dec a (next w)) as [->|G].
    + intros _. exists i. split; [exists x; apply put_same|apply upd_same].
    + rewrite upd_other by assumption. intros H. destruct (D a H) as [k [[y Y] Z]]. exists k.
      assert (k <> i) by (intros ->; rewrite Y in N; discriminate).
      split; [exists y; rewrite put_other; assumption|rewrite upd_other; assumption].
  - exists (S n). split; [|lia]. apply (counted_add _ _ _ i E); [assumption|rewrite put_same; reflexivity|].
    intros k K. rewrite put_other by assumption. reflexivity.
Qed.

(* i changes without a holder before and after *)
Lemma R_blank w (st : state) i c l : R w st -> fullb (st i) = false -> fullb c = false ->
  R (MkAny (heap w) (next w) (upd (anys w) i (option_map (fun _ => None) c)) (allocs w) (frees w) l) (put st i c).
Proof.
  intros [f [A [B [C [D [n [E F]]]]]]] N M. exists f. unfold Rf. cbn [anys heap next allocs frees].
  assert (FO : forall k, full_in (put st i c) k -> full_in st k).
  { intros k [y Y]. destruct (Nat.eq_dec k i) as [->|K]; [rewrite put_same in Y; subst c; discriminate|].
    rewrite put_other in Y by assumption. exists y. assumption. }
  split; [|split; [|split; [|split]]].
  - intros k. destruct (Nat.eq_dec k i) as [->|K].
    + rewrite upd_same, put_same. destruct c as [[|]|]; [discriminate|reflexivity|reflexivity].
    + rewrite !upd_other, put_other by assumption. apply A.
  - intros k y Y. apply B. destruct (Nat.eq_dec k i) as [->|K]; [rewrite put_same in Y; subst c; discriminate|].
    rewrite put_other in Y by assumption. assumption.
  - intros k m K Q. apply C; auto.
  - intros a H. destruct (D a H) as [k [[y Y] Z]]. exists k. split; [|assumption].
    assert (k <> i) by (intros ->; rewrite Y in N; discriminate).
    exists y. rewrite put_other; assumption.
  - exists n. split; [|lia]. apply (counted_ext _ _ _ E). intros k.
    destruct (Nat.eq_dec k i) as [->|K]; [rewrite put_same; congruence|rewrite put_other by assumption; reflexivity].
Qed.

(* the holder of i goes away *)
Lemma R_clear w (st : state) i x c a l : R w st -> st i = Some (Some x) -> fullb c = false -> anys w i = Some (Some a) ->
  R (MkAny (upd (heap w) a None) (next w) (upd (anys w) i (option_map (fun _ => None) c)) (allocs w) (S (frees w)) l) (put st i c).
Proof.
  intros [f [A [B [C [D [n [E F]]]]]]] N M Q. exists f. unfold Rf. cbn [anys heap next allocs frees].
  assert (Fi : a = f i). { rewrite A, N in Q. cbn in Q. congruence. } subst a.
  assert (Gi : full_in st i) by (exists x; assumption).
  assert (FO : forall k, full_in (put st i c) k -> full_in st k /\ k <> i).
  { intros k [y Y]. destruct (Nat.eq_dec k i) as [->|K]; [rewrite put_same in Y; subst c; discriminate|].
    rewrite put_other in Y by assumption. split; [exists y; assumption|assumption]. }
  split; [|split; [|split; [|split]]].
  - intros k. destruct (Nat.eq_dec k i) as [->|K].
    + rewrite upd_same, put_same. destruct c as [[|]|]; [discriminate|reflexivity|reflexivity].
    + rewrite !upd_other, put_other by assumption. apply A.
  - intros k y Y. assert (G : full_in (put st i c) k) by (exists y; assumption). destruct (FO k G) as [G1 G2].
    rewrite put_other in Y by assumption. rewrite upd_other; [apply B; assumption|]. intros H. apply G2. apply C; assumption.
  - intros k m K P. apply C; apply FO; assumption.
  - intros b. destruct (Nat.eq_dec b (f i)) as [->|G]; [rewrite upd_same; intros H; contradiction|].
    rewrite upd_other by assumption. intros H. destruct (D b H) as [k [[y Y] Z]]. exists k. split; [|assumption].
    assert (k <> i) by congruence. exists y. rewrite put_other; assumption.
  - destruct (counted_del _ (fun k => fullb (put st i c k)) _ i E) as [m [-> G]].
    + rewrite N. reflexivity.
    + rewrite put_same. assumption.
    + intros k K. rewrite put_other by assumption. reflexivity.
    + exists m. split; [assumption|lia].
Qed.

(* the holder of i is replaced *)
Lemma R_replace w (st : state) i x y a l : R w st -> st i = Some (Some x) -> anys w i = Some (Some a) ->
  R (MkAny (upd (upd (heap w) (next w) (Some y)) a None) (S (next w)) (upd (anys w) i (Some (Some (next w))))
       (S (allocs w)) (S (frees w)) l) (put st i (Some (Some y))).
Proof.
  intros H N Q. destruct H as [f H]. pose proof H as [A [B _]].
  assert (Fi : a = f i). { rewrite A, N in Q. cbn in Q. congruence. }
  assert (La : a < next w). { rewrite Fi. apply (B i x N). }
  pose proof (R_clear w st i x (Some None) a l (ex_intro _ f H) N eq_refl Q) as H1.
  apply (R_fill _ _ i y l) in H1; [|rewrite put_same; reflexivity]. cbn [heap next anys allocs frees] in H1.
  destruct H1 as [g [A1 [B1 [C1 [D1 [n [E1 F1]]]]]]]. cbn [heap next anys allocs frees] in *. exists g. unfold Rf. cbn [heap next anys allocs frees].
  assert (S1 : forall k, put (put st i (Some None)) i (Some (Some y)) k = put st i (Some (Some y)) k).
  { intros k. unfold put. destruct (k =? i); reflexivity. }
  assert (S2 : forall k, full_in (put st i (Some (Some y))) k <-> full_in (put (put st i (Some None)) i (Some (Some y))) k).
  { intros k. unfold full_in. rewrite S1. reflexivity. }
  assert (S3 : forall b, upd (upd (heap w) (next w) (Some y)) a None b = upd (upd (heap w) a None) (next w) (Some y) b).
  { intros b. unfold upd. destruct (Nat.eqb_spec b a), (Nat.eqb_spec b (next w)); try reflexivity. lia. }
  split; [|split; [|split; [|split]]].
  - intros k. rewrite <- S1, <- A1. unfold upd. destruct (k =? i); reflexivity.
  - intros k z Z. rewrite S3. apply B1. rewrite S1. assumption.
  - intros k m. rewrite !S2. apply C1.
  - intros b. rewrite S3. intros G. destruct (D1 b G) as [k [K1 K2]]. exists k. rewrite S2. auto.
  - exists n. split; [|lia]. apply (counted_ext _ _ _ E1). intros k. rewrite S1. reflexivity.
Qed.

(* two variables exchange their holders *)
Lemma R_swap w (st : state) i j l : R w st -> st i <> None -> st j <> None ->
  R (MkAny (heap w) (next w) (upd (upd (anys w) i (anys w j)) j (anys w i)) (allocs w) (frees w) l)
    (put (put st j (st i)) i (st j)).
Proof.
  intros [f [A [B [C [D [n [E F]]]]]]] I J.
  exists (fun k => if k =? i then f j else if k =? j then f i else f k). unfold Rf. cbn [anys heap next allocs frees].
  set (s := fun k => if k =? i then j else if k =? j then i else k).
  assert (S1 : forall k, put (put st j (st i)) i (st j) k = st (s k)).
  { intros k. unfold put, s. destruct (k =? i); [reflexivity|]. destruct (k =? j); reflexivity. }
  assert (S2 : forall k, (if k =? i then f j else if k =? j then f i else f k) = f (s k)).
  { intros k. unfold s. destruct (k =? i); [reflexivity|]. destruct (k =? j); reflexivity. }
  assert (S3 : forall k, s (s k) = k).
  { intros k. unfold s. destruct (Nat.eqb_spec k i) as [->|]; [rewrite Nat.eqb_refl; destruct (Nat.eqb_spec j i); congruence|].
    destruct (Nat.eqb_spec k j) as [->|]; [rewrite Nat.eqb_refl; reflexivity|].
    destruct (Nat.eqb_spec k i); [contradiction|]. destruct (Nat.eqb_spec k j); [contradiction|reflexivity]. }
  assert (S4 : forall k, full_in (put (put st j (st i)) i (st j)) k <-> full_in st (s k)).
  { intros k. unfold full_in. rewrite S1. reflexivity. }
  split; [|split; [|split; [|split]]].
  - intros k. rewrite S1, S2, <- A. unfold upd, s. destruct (Nat.eqb_spec k j) as [->|].
    + destruct (Nat.eqb_spec j i) as [->|]; reflexivity.
    + destruct (Nat.eqb_spec k i) as [->|]; reflexivity.
  - intros k x. rewrite S1, S2. apply B.
  - intros k m. rewrite !S4, !S2. intros K M H. rewrite <- (S3 k), <- (S3 m). f_equal. apply C; assumption.
  - intros a H. destruct (D a H) as [k [K1 K2]]. exists (s k). rewrite S4, S2, S3. auto.
  - exists n. split; [|assumption]. destruct E as [L [L1 [L2 L3]]]. exists (map s L). split; [|split].
    + apply FinFun.Injective_map_NoDup; [|assumption]. intros a b H. rewrite <- (S3 a), <- (S3 b), H. reflexivity.
    + intros k. rewrite S1, in_map_iff. split.
      * intros [m [M1 M2]]. subst k. rewrite S3. apply L2. assumption.
      * intros H. exists (s k). rewrite S3. split; [reflexivity|]. apply L2. assumption.
    + rewrite map_length. assumption.
Qed.

(* storing through a reference *)
Lemma R_store w (st : state) i x y a l : R w st -> st i = Some (Some x) -> anys w i = Some (Some a) ->
  R (MkAny (upd (heap w) a (Some y)) (next w) (anys w) (allocs w) (frees w) l) (put st i (Some (Some y))).
Proof.
  intros [f [A [B [C [D [n [E F]]]]]]] N Q. exists f. unfold Rf. cbn [anys heap next allocs frees].
  assert (Fi : a = f i). { rewrite A, N in Q. cbn in Q. congruence. } subst a.
  assert (Gi : full_in st i) by (exists x; assumption).
  assert (S : forall k, full_in (put st i (Some (Some y))) k <-> full_in st k).
  { intros k. rewrite !full_b. destruct (Nat.eq_dec k i) as [->|K]; [rewrite put_same, N; tauto|rewrite put_other by assumption; tauto]. }
  split; [|split; [|split; [|split]]].
  - intros k. rewrite A. destruct (Nat.eq_dec k i) as [->|K]; [rewrite put_same, N; reflexivity|rewrite put_other by assumption; reflexivity].
  - intros k z. destruct (Nat.eq_dec k i) as [->|K].
    + rewrite put_same, upd_same. intros [= <-]. split; [reflexivity|apply (B i x N)].
    + rewrite put_other by assumption. intros Z. rewrite upd_other; [apply B; assumption|].
      intros G. apply K. apply C; [exists z; assumption|assumption|assumption].
  - intros k m. rewrite !S. apply C.
  - intros b. destruct (Nat.eq_dec b (f i)) as [->|G].
    + intros _. exists i. rewrite S. auto.
    + rewrite upd_other by assumption. intros H. destruct (D b H) as [k K]. exists k. rewrite S. assumption.
  - exists n. split; [|assumption]. apply (counted_ext _ _ _ E). intros k.
    destruct (Nat.eq_dec k i) as [->|K]; [rewrite put_same, N; reflexivity|rewrite put_other by assumption; reflexivity].
Qed.

Lemma R_throws w (st : state) l : R w st -> R (MkAny (heap w) (next w) (anys w) (allocs w) (frees w) l) st.
Proof. intros [f H]. exists f. exact H. Qed.

Lemma R_look w (st : state) i : R w st ->
  match st i with
  | None => anys w i = None
  | Some None => anys w i = Some None
  | Some (Some x) => exists a, anys w i = Some (Some a) /\ heap w a = Some x /\ a < next w
  end.
Proof.
  intros [f [A [B _]]]. specialize (A i). specialize (B i). destruct (st i) as [[x|]|]; cbn in A; [|assumption..].
  exists (f i). destruct (B x eq_refl). auto.
Qed.

Lemma R_wext w w' (st : state) : R w st -> (forall i, anys w' i = anys w i) -> (forall a, heap w' a = heap w a) ->
  next w' = next w -> allocs w' = allocs w -> frees w' = frees w -> R w' st.
Proof.
  intros [f [A [B [C [D [n [E F]]]]]]] X Y Z P Q. exists f. unfold Rf. rewrite Z, P, Q.
  split; [intros k; rewrite X; apply A|]. split; [intros k x H; rewrite Y; apply B; assumption|]. split; [assumption|].
  split; [intros a; rewrite Y; apply D|exists n; auto].
Qed.

Definition works (o : op V) (st : state) (w : world) : Prop :=
  exists w' st', step copyable o st w w' st' /\ R w' st' /\ (athrows w = [] -> athrows w' = []).

Lemma works_done o (st : state) w w' :
  exec copyable o w = Done tt w' -> R w' (effect o st) -> ~ must_throw copyable o st ->
  (athrows w = [] -> athrows w' = []) -> works o st w.
Proof. intros E H M T. exists w', (effect o st). split; [left; auto|]. split; assumption. Qed.

Lemma works_threw o (st : state) w w' :
  exec copyable o w = Threw w' -> R w' st -> (must_throw copyable o st \/ athrows w <> []) ->
  (athrows w = [] -> athrows w' = []) -> works o st w.
Proof. intros E H M T. exists w', st. split; [right; auto|]. split; assumption. Qed.

(* making a holder: three cases *)
Lemma make_holder_cases (x : val V) (w : world) :
  (exists l, athrows w = true :: l /\ make_holder x w = Threw (MkAny (heap w) (next w) (anys w) (allocs w) (frees w) l)) \/
  (exists l, (athrows w = [] -> l = []) /\ make_holder x w = Done (next w)
     (MkAny (upd (heap w) (next w) (Some x)) (S (next w)) (anys w) (S (allocs w)) (frees w) l)).
Proof.
  unfold make_holder. destruct (athrows w) as [|[] l].
  - right. exists []. auto.
  - left. exists l. auto.
  - right. exists l. split; [discriminate|reflexivity].
Qed.

Ltac red1 := cbn [heap next anys allocs frees athrows].

Lemma w_New i w (st : state) : R w st -> legal (New i) st -> works (New i) st w.
Proof.
  intros H L. cbn [legal] in L. pose proof (R_look w st i H) as K. rewrite L in K.
  eapply works_done; [cbn [exec]; unfold declare, abind, aret, set_content; rewrite K; reflexivity| |intros []|auto].
  apply (R_blank w st i (Some None)); [assumption|rewrite L; reflexivity|reflexivity].
Qed.

Lemma w_NewPlain i t v w (st : state) : R w st -> legal (NewPlain i t v) st -> works (NewPlain i t v) st w.
Proof.
  intros H L. cbn [legal] in L. pose proof (R_look w st i H) as K. rewrite L in K.
  destruct (make_holder_cases (Plain t v) w) as [[l [T E]]|[l [T E]]].
  - eapply works_threw; [cbn [exec]; unfold declare, abind; rewrite K, E; reflexivity|apply R_throws; assumption| |].
    + right. rewrite T. discriminate.
    + rewrite T. discriminate.
  - eapply works_done; [cbn [exec]; unfold declare, abind; rewrite K, E; unfold aret, set_content; reflexivity| |intros []|exact T].
    red1. apply R_fill; [assumption|rewrite L; reflexivity].
Qed.

(* the content of j is there *)
Lemma look_full w (st : state) j x : R w st -> st j = Some (Some x) ->
  exists a, anys w j = Some (Some a) /\ heap w a = Some x /\ a < next w.
Proof. intros H J. pose proof (R_look w st j H) as K. rewrite J in K. exact K. Qed.
Lemma look_empty w (st : state) j : R w st -> st j = Some None -> anys w j = Some None.
Proof. intros H J. pose proof (R_look w st j H) as K. rewrite J in K. exact K. Qed.
Lemma look_none w (st : state) j : R w st -> st j = None -> anys w j = None.
Proof. intros H J. pose proof (R_look w st j H) as K. rewrite J in K. exact K. Qed.

(* copying j, as a holder or not *)
Lemma copy_of_cases w (st : state) j : R w st -> st j <> None ->
  (st j = Some None /\ copy_of copyable j w = Done None w) \/
  (exists x, st j = Some (Some x) /\ ~ can_copy copyable x /\ copy_of copyable j w = Threw w) \/
  (exists x l, st j = Some (Some x) /\ can_copy copyable x /\ athrows w = true :: l /\
     copy_of copyable j w = Threw (MkAny (heap w) (next w) (anys w) (allocs w) (frees w) l)) \/
  (exists x l, st j = Some (Some x) /\ can_copy copyable x /\ (athrows w = [] -> l = []) /\
     copy_of copyable j w = Done (Some (next w))
       (MkAny (upd (heap w) (next w) (Some x)) (S (next w)) (anys w) (S (allocs w)) (frees w) l)).
Proof.
  intros H J. destruct (st j) as [[x|]|] eqn:S; [| |contradiction].
  - right. destruct (look_full w st j x H S) as [a [A [B C]]].
    unfold copy_of, abind, content, clone, abind, deref. rewrite A, B. destruct (clone_ok copyable x) eqn:K.
    + right. apply clone_ok_copy in K. destruct (make_holder_cases x w) as [[l [T E]]|[l [T E]]].
      * left. exists x, l. rewrite E. auto.
      * right. exists x, l. rewrite E. auto.
    + left. exists x. split; [reflexivity|]. split; [|reflexivity]. intros G. apply clone_ok_copy in G. congruence.
  - left. split; [reflexivity|]. unfold copy_of, abind, content. rewrite (look_empty w st j H S). reflexivity.
Qed.

Lemma holder_of_cases w (st : state) j c : R w st -> st j = Some c ->
  (exists x, c = Some x /\ ~ can_copy copyable x /\ holder_of copyable j w = Threw w) \/
  ((forall x, c = Some x -> can_copy copyable x) /\ exists l, athrows w = true :: l /\
     holder_of copyable j w = Threw (MkAny (heap w) (next w) (anys w) (allocs w) (frees w) l)) \/
  ((forall x, c = Some x -> can_copy copyable x) /\ exists l, (athrows w = [] -> l = []) /\
     holder_of copyable j w = Done (next w)
       (MkAny (upd (heap w) (next w) (Some (Inner c))) (S (next w)) (anys w) (S (allocs w)) (frees w) l)).
Proof.
  intros H S. destruct c as [x|].
  - destruct (look_full w st j x H S) as [a [A [B C]]].
    unfold holder_of, abind, content, abind, deref. rewrite A, B. destruct (clone_ok copyable x) eqn:K.
    + right. apply clone_ok_copy in K. assert (K2 : forall y, Some x = Some y -> can_copy copyable y) by congruence.
      destruct (make_holder_cases (Inner (Some x)) w) as [[l [T E]]|[l [T E]]].
      * left. split; [assumption|]. exists l. rewrite E. auto.
      * right. split; [assumption|]. exists l. rewrite E. auto.
    + left. exists x. split; [reflexivity|]. split; [|reflexivity]. intros G. apply clone_ok_copy in G. congruence.
  - right. unfold holder_of, abind, content. rewrite (look_empty w st j H S).
    destruct (make_holder_cases (Inner None) w) as [[l [T E]]|[l [T E]]].
    + left. split; [discriminate|]. exists l. rewrite E. auto.
    + right. split; [discriminate|]. exists l. rewrite E. auto.
Qed.

Lemma declare_run i m w (w' : world) p : anys w i = None -> m w = Done p w' ->
  declare i m w = Done tt (MkAny (heap w') (next w') (upd (anys w') i (Some p)) (allocs w') (frees w') (athrows w')).
Proof. intros A B. unfold declare, abind. rewrite A, B. reflexivity. Qed.

Lemma w_NewCopyConst i j w (st : state) : R w st -> legal (NewCopyConst i j) st -> works (NewCopyConst i j) st w.
Proof.
  intros H [L J]. pose proof (look_none w st i H L) as K.
  destruct (copy_of_cases w st j H J) as [[S E]|[[x [S [N E]]]|[[x [l [S [N [T E]]]]]|[x [l [S [N [T E]]]]]]]].
  - eapply works_done; [cbn [exec]; apply (declare_run _ _ _ _ _ K E)| | |auto].
    + cbn [effect]. rewrite S. apply (R_blank w st i (Some None)); [assumption|rewrite L; reflexivity|reflexivity].
    + intros [x [X _]]. congruence.
  - eapply works_threw; [cbn [exec]; unfold declare, abind; rewrite K, E; reflexivity|assumption| |auto].
    left. exists x. auto.
  - eapply works_threw; [cbn [exec]; unfold declare, abind; rewrite K, E; reflexivity|apply R_throws; assumption| |].
    + right. rewrite T. discriminate.
    + rewrite T. discriminate.
  - eapply works_done; [cbn [exec]; apply (declare_run _ _ _ _ _ K E)| | |exact T].
    + cbn [effect]. rewrite S. red1. apply R_fill; [assumption|rewrite L; reflexivity].
    + intros [y [X Y]]. replace y with x in * by congruence. contradiction.
Qed.

Lemma w_NewCopyLvalue i j w (st : state) : R w st -> legal (NewCopyLvalue i j) st -> works (NewCopyLvalue i j) st w.
Proof.
  intros H [L J]. pose proof (look_none w st i H L) as K. unfold exists_in in J.
  destruct (st j) as [c|] eqn:S; [|contradiction].
  destruct (holder_of_cases w st j c H S) as [[x [C [N E]]]|[[N [l [T E]]]|[N [l [T E]]]]].
  - eapply works_threw; [cbn [exec]; unfold declare, abind; rewrite K, E; reflexivity|assumption| |auto].
    left. exists x. split; congruence.
  - eapply works_threw; [cbn [exec]; unfold declare, abind; rewrite K, E; reflexivity|apply R_throws; assumption| |].
    + right. rewrite T. discriminate.
    + rewrite T. discriminate.
  - eapply works_done; [cbn [exec]; unfold declare, abind; rewrite K, E; unfold aret, set_content; reflexivity| | |exact T].
    + cbn [effect]. rewrite S. red1. apply R_fill; [assumption|rewrite L; reflexivity].
    + intros [y [X Y]]. apply Y. apply N. congruence.
Qed.

Lemma exists_look w (st : state) j : R w st -> st j <> None -> exists p, anys w j = Some p /\
  (p = None <-> st j = Some None).
Proof.
  intros H J. destruct (st j) as [[x|]|] eqn:S; [| |contradiction].
  - destruct (look_full w st j x H S) as [a [A _]]. exists (Some a). split; [assumption|]. split; discriminate.
  - exists None. split; [exact (look_empty w st j H S)|tauto].
Qed.

Lemma w_NewMove i j w (st : state) : R w st -> legal (NewMove i j) st -> works (NewMove i j) st w.
Proof.
  intros H [L J]. pose proof (look_none w st i H L) as K. destruct (exists_look w st j H J) as [p [P _]].
  assert (D : j <> i) by (intros ->; contradiction).
  eapply works_done.
  - cbn [exec]. unfold abind, content, declare. rewrite P. rewrite K. unfold abind, set_content, aret. reflexivity.
  - red1. cbn [effect].
    assert (H1 : R (MkAny (heap w) (next w) (upd (anys w) i (Some None)) (allocs w) (frees w) (athrows w)) (put st i (Some None))).
    { apply (R_blank w st i (Some None)); [assumption|rewrite L; reflexivity|reflexivity]. }
    apply (R_swap _ _ i j (athrows w)) in H1; [|rewrite put_same; discriminate|rewrite put_other by assumption; assumption].
    cbn [heap next anys allocs frees athrows] in H1.
    eapply R_wext; [eapply (R_ext _ _ _ H1)|..]; red1; try reflexivity.
    + intros k. rewrite put_same, (put_other st i _ j) by assumption. unfold put.
      destruct (k =? i); [reflexivity|]. destruct (k =? j); reflexivity.
    + intros k. rewrite upd_same, (upd_other (anys w)), P by assumption. unfold upd.
      destruct (Nat.eqb_spec k i) as [->|].
      * destruct (Nat.eqb_spec i j); [congruence|]. reflexivity.
      * destruct (k =? j); reflexivity.
  - intros [].
  - auto.
Qed.

Lemma w_Delete i w (st : state) : R w st -> legal (Delete i) st -> works (Delete i) st w.
Proof.
  intros H L. unfold legal, exists_in in L. destruct (st i) as [[x|]|] eqn:S; [| |contradiction].
  - destruct (look_full w st i x H S) as [a [A [B C]]].
    eapply works_done; [cbn [exec]; unfold abind, content, undeclare, release; rewrite A; red1; rewrite B; reflexivity| |intros []|auto].
    red1. apply (R_clear w st i x None); [assumption|assumption|reflexivity|assumption].
  - eapply works_done; [cbn [exec]; unfold abind, content, undeclare, release; rewrite (look_empty w st i H S); reflexivity| |intros []|auto].
    apply (R_blank w st i None); [assumption|rewrite S; reflexivity|reflexivity].
Qed.

(* replacing the content of i by a new holder, or by nothing *)
Lemma replace_new w w1 (st : state) i x l : R w st -> st i <> None ->
  w1 = MkAny (upd (heap w) (next w) (Some x)) (S (next w)) (anys w) (S (allocs w)) (frees w) l ->
  exists w', replace i (Some (next w)) w1 = Done tt w' /\ R w' (put st i (Some (Some x))) /\ athrows w' = l.
Proof.
  intros H L ->. destruct (st i) as [[y|]|] eqn:S; [| |contradiction].
  - destruct (look_full w st i y H S) as [a [A [B C]]].
    eexists. split; [unfold replace, abind, content, set_content, release; red1; rewrite A; red1;
      rewrite upd_other by lia; rewrite B; reflexivity|].
    split; [|reflexivity]. red1. apply (R_replace w st i y); assumption.
  - eexists. split; [unfold replace, abind, content, set_content, release; red1; rewrite (look_empty w st i H S); reflexivity|].
    split; [|reflexivity]. red1. apply R_fill; [assumption|rewrite S; reflexivity].
Qed.

Lemma replace_none w (st : state) i : R w st -> st i <> None ->
  exists w', replace i None w = Done tt w' /\ R w' (put st i (Some None)) /\ athrows w' = athrows w.
Proof.
  intros H L. destruct (st i) as [[y|]|] eqn:S; [| |contradiction].
  - destruct (look_full w st i y H S) as [a [A [B C]]].
    eexists. split; [unfold replace, abind, content, set_content, release; rewrite A; red1; rewrite B; reflexivity|].
    split; [|reflexivity]. red1. apply (R_clear w st i y (Some None)); [assumption|assumption|reflexivity|assumption].
  - eexists. split; [unfold replace, abind, content, set_content, release; rewrite (look_empty w st i H S); reflexivity|].
    split; [|reflexivity]. red1. apply (R_blank w st i (Some None)); [assumption|rewrite S; reflexivity|reflexivity].
Qed.

Lemma w_AssignConst i j w (st : state) : R w st -> legal (AssignConst i j) st -> works (AssignConst i j) st w.
Proof.
  intros H [L J].
  destruct (copy_of_cases w st j H J) as [[S E]|[[x [S [N E]]]|[[x [l [S [N [T E]]]]]|[x [l [S [N [T E]]]]]]]].
  - destruct (replace_none w st i H L) as [w' [W1 [W2 W3]]].
    eapply works_done; [cbn [exec]; unfold abind; rewrite E; exact W1| | |congruence].
    + cbn [effect]. rewrite S. assumption.
    + intros [x [X _]]. congruence.
  - eapply works_threw; [cbn [exec]; unfold abind; rewrite E; reflexivity|assumption| |auto].
    left. exists x. auto.
  - eapply works_threw; [cbn [exec]; unfold abind; rewrite E; reflexivity|apply R_throws; assumption| |].
    + right. rewrite T. discriminate.
    + rewrite T. discriminate.
  - destruct (replace_new w _ st i x l H L eq_refl) as [w' [W1 [W2 W3]]].
    eapply works_done; [cbn [exec]; unfold abind; rewrite E; exact W1| | |rewrite W3; exact T].
    + cbn [effect]. rewrite S. assumption.
    + intros [y [X Y]]. replace y with x in * by congruence. contradiction.
Qed.

Lemma w_AssignLvalue i j w (st : state) : R w st -> legal (AssignLvalue i j) st -> works (AssignLvalue i j) st w.
Proof.
  intros H [L J]. unfold exists_in in J. destruct (st j) as [c|] eqn:S; [|contradiction].
  destruct (holder_of_cases w st j c H S) as [[x [C [N E]]]|[[N [l [T E]]]|[N [l [T E]]]]].
  - eapply works_threw; [cbn [exec]; unfold abind; rewrite E; reflexivity|assumption| |auto].
    left. exists x. split; congruence.
  - eapply works_threw; [cbn [exec]; unfold abind; rewrite E; reflexivity|apply R_throws; assumption| |].
    + right. rewrite T. discriminate.
    + rewrite T. discriminate.
  - destruct (replace_new w _ st i (Inner c) l H L eq_refl) as [w' [W1 [W2 W3]]].
    eapply works_done; [cbn [exec]; unfold abind; rewrite E; exact W1| | |rewrite W3; exact T].
    + cbn [effect]. rewrite S. assumption.
    + intros [y [X Y]]. apply Y. apply N. congruence.
Qed.

Lemma w_AssignPlain i t v w (st : state) : R w st -> legal (AssignPlain i t v) st -> works (AssignPlain i t v) st w.
Proof.
  intros H L. cbn [legal] in L. destruct (make_holder_cases (Plain t v) w) as [[l [T E]]|[l [T E]]].
  - eapply works_threw; [cbn [exec]; unfold abind; rewrite E; reflexivity|apply R_throws; assumption| |].
    + right. rewrite T. discriminate.
    + rewrite T. discriminate.
  - destruct (replace_new w _ st i (Plain t v) l H L eq_refl) as [w' [W1 [W2 W3]]].
    eapply works_done; [cbn [exec]; unfold abind; rewrite E; exact W1|exact W2|intros []|rewrite W3; exact T].
Qed.

Lemma w_Clear i w (st : state) : R w st -> legal (Clear i) st -> works (Clear i) st w.
Proof.
  intros H L. destruct (replace_none w st i H L) as [w' [W1 [W2 W3]]].
  eapply works_done; [exact W1|exact W2|intros []|congruence].
Qed.

Lemma swap_run i j w (st : state) : R w st -> st i <> None -> st j <> None ->
  exists w', exec copyable (Swap i j) w = Done tt w' /\ R w' (put (put st j (st i)) i (st j)) /\ athrows w' = athrows w.
Proof.
  intros H I J. destruct (exists_look w st i H I) as [p [P _]]. destruct (exists_look w st j H J) as [q [Q _]].
  eexists. split; [cbn [exec]; unfold abind, content, set_content; rewrite P, Q; reflexivity|]. split; [|reflexivity].
  red1. rewrite <- P, <- Q. apply R_swap; assumption.
Qed.

Lemma w_Swap i j w (st : state) : R w st -> legal (Swap i j) st -> works (Swap i j) st w.
Proof.
  intros H [I J]. destruct (swap_run i j w st H I J) as [w' [W1 [W2 W3]]].
  eapply works_done; [exact W1|exact W2|intros []|congruence].
Qed.

Lemma w_AssignMove i j w (st : state) : R w st -> legal (AssignMove i j) st -> works (AssignMove i j) st w.
Proof.
  intros H [I J]. destruct (swap_run i j w st H I J) as [w1 [W1 [W2 W3]]].
  destruct (replace_none w1 _ j W2) as [w' [W4 [W5 W6]]].
  { unfold put. destruct (j =? i); [assumption|]. rewrite Nat.eqb_refl. assumption. }
  eapply works_done; [| |intros []|].
  - cbn [exec] in W1 |- *. unfold abind, content in W1 |- *. destruct (anys w i) as [p|]; [|discriminate].
    destruct (anys w j) as [q|]; [|discriminate]. unfold set_content in W1 |- *. injection W1 as <-. exact W4.
  - apply (R_ext _ _ _ W5). intros k. cbn [effect]. unfold put. destruct (Nat.eqb_spec k j) as [->|]; [reflexivity|].
    destruct (k =? i); reflexivity.
  - congruence.
Qed.

Lemma w_Store i t v w (st : state) : R w st -> legal (Store i t v) st -> works (Store i t v) st w.
Proof.
  intros H L. unfold legal, exists_in in L. destruct (st i) as [[x|]|] eqn:S; [| |contradiction].
  - destruct (look_full w st i x H S) as [a [A [B C]]]. destruct x as [u y|c].
    + destruct (Nat.eq_dec u t) as [->|D].
      * eapply works_done; [cbn [exec]; unfold store, abind, content, deref; rewrite A, B, Nat.eqb_refl; reflexivity| | |auto].
        -- red1. apply (R_store w st i (Plain t y)); assumption.
        -- intros G. apply G. exists y. assumption.
      * eapply works_threw; [cbn [exec]; unfold store, abind, content, deref; rewrite A, B; apply Nat.eqb_neq in D; rewrite D; reflexivity|assumption| |auto].
        left. intros [z Z]. congruence.
    + eapply works_threw; [cbn [exec]; unfold store, abind, content, deref; rewrite A, B; reflexivity|assumption| |auto].
      left. intros [z Z]. congruence.
  - eapply works_threw; [cbn [exec]; unfold store, abind, content; rewrite (look_empty w st i H S); reflexivity|assumption| |auto].
    left. intros [z Z]. congruence.
Qed.

Theorem every_step_works o w (st : state) : R w st -> legal o st -> works o st w.
Proof.
  destruct o; [apply w_New|apply w_NewPlain|apply w_NewCopyConst|apply w_NewCopyLvalue|apply w_NewMove|apply w_Delete|
    apply w_AssignConst|apply w_AssignLvalue|apply w_AssignMove|apply w_AssignPlain|apply w_Clear|apply w_Swap|apply w_Store].
Qed.

Lemma R_seen w (st : state) : R w st -> seen w st.
Proof.
  intros H. split; [|split].
  - intros i t v S. destruct (look_full w st i _ H S) as [a [A [B C]]].
    unfold type_of, empty, get, get_or, abind, content, deref. rewrite A, B, Nat.eqb_refl.
    split; [reflexivity|]. split; [reflexivity|]. split; [reflexivity|]. split; [reflexivity|].
    intros u D. apply not_eq_sym, Nat.eqb_neq in D. rewrite D. split; reflexivity.
  - intros i c S. destruct (look_full w st i _ H S) as [a [A [B C]]].
    unfold type_of, empty, get, get_or, abind, content, deref. rewrite A, B. repeat split.
  - intros i S. unfold type_of, empty, get, get_or, abind, content. rewrite (look_empty w st i H S). repeat split.
Qed.

Lemma R_balanced w (st : state) : R w st -> balanced w st.
Proof.
  intros H. pose proof H as [f [A [B [C [D [n [E F]]]]]]].
  assert (G : forall i a, anys w i = Some (Some a) -> full_in st i /\ f i = a).
  { intros i a K. rewrite A in K. destruct (st i) as [[x|]|] eqn:S; cbn in K; try discriminate.
    split; [exists x; assumption|congruence]. }
  split; [|split].
  - intros i j a I J. destruct (G i a I), (G j a J). apply C; congruence.
  - intros a. split.
    + intros K. destruct (D a K) as [i [[x X] Y]]. exists i. rewrite A, X. cbn. congruence.
    + intros [i I]. destruct (G i a I) as [[x X] <-]. destruct (B i x X) as [Y _]. rewrite Y. discriminate.
  - intros l N I. rewrite F. f_equal. symmetry. apply (counted_length _ _ _ E N). intros i. rewrite I. apply full_b.
Qed.

Theorem simulation :
  exists Rel : world -> state -> Prop,
    (forall oracle, Rel (astart oracle) nothing) /\
    (forall (w : world) (st : state) (o : op V), Rel w st -> legal o st -> exists w' st', step copyable o st w w' st' /\ Rel w' st') /\
    (forall (w : world) (st : state), Rel w st -> seen w st /\ balanced w st).
Proof.
  exists R. split; [exact R_start|]. split.
  - intros w st o H L. destruct (every_step_works o w st H L) as [w' [st' [A [B _]]]]. exists w', st'. auto.
  - intros w st H. split; [apply R_seen|apply R_balanced]; assumption.
Qed.

Theorem histories (l : list (op V)) (st : state) : follows copyable l nothing st ->
  exists w, run copyable l (astart []) = Some w /\ seen w st /\ balanced w st.
Proof.
  enough (G : forall st0 st, follows copyable l st0 st -> forall (w : world) st1, (forall k, st1 k = st0 k) -> R w st1 -> athrows w = [] ->
    exists w', run copyable l w = Some w' /\ R w' st).
  { intros L. destruct (G _ _ L _ _ (fun k => eq_refl) (R_start []) eq_refl) as [w [A B]]. exists w. split; [assumption|].
    split; [apply R_seen|apply R_balanced]; assumption. }
  clear st. induction 1 as [st|o l st st' L N _ IH|o l st st' L N _ IH]; intros w st1 X H T; cbn [run].
  - exists w. split; [reflexivity|]. apply (R_ext _ _ _ H X).
  - apply (fun H => R_ext _ _ _ H X) in H. destruct (every_step_works o w st H L) as [w' [st2 [A [B C]]]].
    destruct A as [[A1 [A2 A3]]|[A1 [A2 [A3|A3]]]]; [| |]; [rewrite A1; apply (IH w' st2); auto|contradiction|congruence].
  - apply (fun H => R_ext _ _ _ H X) in H. destruct (every_step_works o w st H L) as [w' [st2 [A [B C]]]].
    destruct A as [[A1 [A2 A3]]|[A1 [A2 A3]]]; [contradiction|]. rewrite A1. apply (IH w' st2); auto.
Qed.
End Proofs.
