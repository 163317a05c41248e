From Coq Require Import NArith ZArith List Bool Lia Arith.
Import ListNotations.
From Verif Require Import MakeModel MakeSpec.
Local Open Scope N_scope.

(* ---- sizes ---- *)
Lemma total_cons : forall n a r, total (n :: a :: r) = wrap_mul n (total (a :: r)).
Proof. reflexivity. Qed.
Lemma dims_total_eq : forall sz, dims_total sz = total sz.
Proof.
  induction sz as [|n [|a r] IH]; [reflexivity | reflexivity |].
  rewrite total_cons, <- IH. reflexivity.
Qed.
Lemma total_volume : forall sz, sz <> [] -> (forall n, In n sz -> n < size_mod) -> total sz = volume sz mod size_mod.
Proof.
  induction sz as [|n [|a r] IH]; intros H Hs; [contradiction | |].
  - cbn. rewrite N.mul_1_r. symmetry. apply N.mod_small. apply Hs. left; reflexivity.
  - rewrite total_cons, IH; [| discriminate | intros; apply Hs; right; assumption].
    unfold wrap_mul. change (volume (n :: a :: r)) with (n * volume (a :: r)).
    rewrite N.mul_mod_idemp_r; [reflexivity | discriminate].
Qed.
Lemma volume_pos_le : forall sz n, In n sz -> volume sz <> 0 -> n <= volume sz.
Proof.
  induction sz as [|a r IH]; intros n H V; [destruct H|].
  change (volume (a :: r)) with (a * volume r) in *.
  assert (a <> 0 /\ volume r <> 0) as [Ha Hr] by (split; intro E; apply V; rewrite E; lia).
  destruct H as [-> | H]; [nia|]. specialize (IH n H Hr). nia.
Qed.
Lemma total_small : forall sz, sz <> [] -> volume sz <> 0 -> volume sz < size_mod -> total sz = volume sz.
Proof.
  intros sz H V L. rewrite total_volume; [apply N.mod_small; assumption | assumption |].
  intros n Hn. pose proof (volume_pos_le sz n Hn V). lia.
Qed.
Lemma total_zero : forall sz, volume sz = 0 -> total sz = 0.
Proof.
  induction sz as [|n [|a r] IH]; intros H; [reflexivity | cbn in *; lia |].
  rewrite total_cons. unfold wrap_mul. change (volume (n :: a :: r)) with (n * volume (a :: r)) in H.
  destruct (N.eq_dec n 0) as [E|E].
  - rewrite E. reflexivity.
  - rewrite IH by nia. rewrite N.mul_0_r. reflexivity.
Qed.
Lemma total_exact : forall sz, sz <> [] -> volume sz < size_mod -> total sz = volume sz.
Proof.
  intros sz H L. destruct (N.eq_dec (volume sz) 0) as [E|E].
  - rewrite E. apply total_zero. assumption.
  - apply total_small; assumption.
Qed.

Section P.
Set Default Proof Using "Type".
Variable A : Type.
Variable fresh : A.
Notation mo := (made_of A fresh).
Notation cons_ := (construct A fresh).
Notation call := (construct_all A fresh).

(* ---- filling a block ---- *)
Definition events_from (k : nat) (l : list (source A)) : list (event A) :=
  map (fun p => event_of A (fst p) (snd p)) (combine (seq k (length l)) l).

Lemma call_app : forall n l1 l2 f,
  call n f (l1 ++ l2) = match call n f l1 with Filled _ f' => call n f' l2 | x => x end.
Proof.
  intros n; induction l1 as [|s l IH]; intros l2 f; [reflexivity|].
  cbn [app construct_all]. destruct (cons_ n f s); [apply IH | reflexivity | reflexivity].
Qed.

Lemma call_fits : forall n l f, N.of_nat (length (made A f) + length l) <= n ->
  (throws (N.of_nat (length l)) (sched A f) = false ->
    call n f l = Filled A (Filling A (made A f ++ map mo l) (skipn (length l) (sched A f))
                            (tr A f ++ events_from (length (made A f)) l)))
  /\ (throws (N.of_nat (length l)) (sched A f) = true -> exists f', call n f l = Threw A Element f').
Proof.
  intros n; induction l as [|s l IH]; intros f Hf; unfold throws in *.
  - cbn. rewrite !app_nil_r. split; intros H; [destruct f; reflexivity | discriminate].
  - rewrite Nat2N.id in *. cbn [construct_all length].
    unfold construct. cbn [length] in Hf.
    assert (B : N.of_nat (length (made A f)) <? n = true) by (apply N.ltb_lt; lia).
    rewrite B. destruct (sched A f) as [|[|] r] eqn:E.
    + specialize (IH (Filling A (made A f ++ [mo s]) [] (tr A f ++ [event_of A (length (made A f)) s]))).
      cbn [made sched tr] in IH. rewrite app_length in IH. cbn [length] in IH.
      destruct IH as [IH _]; [lia|]. split; [| cbn; discriminate].
      intros _. rewrite ?Nat2N.id in IH. rewrite firstn_nil in IH. cbn [tl]. rewrite IH by reflexivity.
      rewrite <- !app_assoc. cbn [app map]. unfold events_from. cbn [length seq combine map fst snd].
      rewrite Nat.add_1_r. rewrite !skipn_nil. reflexivity.
    + split; [cbn; discriminate |]. intros _. eexists; reflexivity.
    + specialize (IH (Filling A (made A f ++ [mo s]) r (tr A f ++ [event_of A (length (made A f)) s]))).
      cbn [made sched tr] in IH. rewrite app_length in IH. cbn [length] in IH. rewrite ?Nat2N.id in IH.
      destruct IH as [IH1 IH2]; [lia|]. cbn [firstn existsb skipn tl orb]. split.
      * intros H. rewrite (IH1 H). rewrite <- !app_assoc. cbn [app map]. unfold events_from. cbn [length seq combine map fst snd].
        rewrite Nat.add_1_r. reflexivity.
      * intros H. destruct (IH2 H) as [f' ->]. exists f'. reflexivity.
Qed.
(* how far it got *)
Lemma call_threw_at : forall n l f k, N.of_nat (length (made A f) + length l) <= n -> (k < length l)%nat ->
  nth k (sched A f) false = true -> (forall i, (i < k)%nat -> nth i (sched A f) false = false) ->
  exists f', call n f l = Threw A Element f' /\ made A f' = made A f ++ map mo (firstn k l)
    /\ tr A f' = tr A f ++ events_from (length (made A f)) (firstn k l).
Proof.
  intros n; induction l as [|s l IH]; intros f k Hf K H1 H2; cbn [length] in *; [lia|].
  cbn [construct_all]. unfold construct.
  assert (B : N.of_nat (length (made A f)) <? n = true) by (apply N.ltb_lt; lia). rewrite B.
  destruct k as [|k].
  - destruct (sched A f) as [|[|] r]; try discriminate. eexists. split; [reflexivity|]. cbn. rewrite !app_nil_r. split; reflexivity.
  - pose proof (H2 0%nat ltac:(lia)) as H0. destruct (sched A f) as [|[|] r]; try discriminate.
    cbn [tl]. cbn in H1.
    edestruct (IH (Filling A (made A f ++ [mo s]) r (tr A f ++ [event_of A (length (made A f)) s])) k) as (f' & F1 & F2 & F3).
    + cbn [made]. rewrite app_length. cbn. lia.
    + lia.
    + exact H1.
    + intros i Hi. apply (H2 (S i)). lia.
    + exists f'. rewrite F1, F2, F3. cbn [made tr firstn map]. rewrite <- !app_assoc. repeat split.
      unfold events_from. cbn [length seq combine map fst snd app]. rewrite app_length. cbn [length].
      rewrite Nat.add_1_r. reflexivity.
Qed.

Lemma call_over : forall n l f, n < N.of_nat (length (made A f) + length l) ->
  N.of_nat (length (made A f)) <= n ->
  throws (n - N.of_nat (length (made A f))) (sched A f) = false -> call n f l = Over A.
Proof.
  intros n; induction l as [|s l IH]; intros f H1 H2 H3; unfold throws in *.
  - cbn [length] in H1. lia.
  - cbn [construct_all]. unfold construct. destruct (N.ltb_spec (N.of_nat (length (made A f))) n) as [L|L]; [|reflexivity].
    destruct (N.to_nat (n - N.of_nat (length (made A f)))) as [|k] eqn:K; [lia|].
    cbn [length] in H1.
    destruct (sched A f) as [|[|] r] eqn:E; cbn [tl].
    + apply IH; cbn [made sched]; rewrite app_length; cbn [length]; try lia.
      rewrite firstn_nil. reflexivity.
    + cbn in H3. discriminate.
    + apply IH; cbn [made sched]; rewrite app_length; cbn [length]; try lia.
      cbn in H3. replace (N.to_nat (n - N.of_nat (length (made A f) + 1))) with k by lia. assumption.
Qed.

(* ---- the memory ---- *)
Definition mem_inv (n : N) (f : filling A) : Prop :=
  after A fresh (tr A f) = Some (Some (n, combine (seq 0 (length (made A f))) (made A f))).
Lemma after_app : forall t e, after A fresh (t ++ [e]) = does A fresh (after A fresh t) e.
Proof. intros. unfold after. apply fold_left_app. Qed.
Lemma combine_snoc : forall (X Y : Type) (l1 : list X) (l2 : list Y) a b,
  length l1 = length l2 -> combine (l1 ++ [a]) (l2 ++ [b]) = combine l1 l2 ++ [(a, b)].
Proof.
  induction l1 as [|x l1 IH]; intros [|y l2] a b H; try discriminate; [reflexivity|].
  cbn. rewrite IH by (cbn in H; lia). reflexivity.
Qed.
Lemma not_taken : forall (l : list A) j k, (j + length l <= k)%nat ->
  taken_place A k (combine (seq j (length l)) l) = false.
Proof.
  induction l as [|x l IH]; intros j k H; [reflexivity|]. cbn in H |- *.
  destruct (Nat.eqb_spec j k) as [E|E]; [lia|]. apply IH. lia.
Qed.
Lemma construct_inv : forall n f s f', cons_ n f s = Filled A f' -> mem_inv n f -> mem_inv n f'.
Proof.
  intros n f s f' H I. unfold construct in H.
  destruct (N.ltb_spec (N.of_nat (length (made A f))) n) as [L|L]; [|discriminate].
  assert (G : f' = Filling A (made A f ++ [mo s]) (tl (sched A f)) (tr A f ++ [event_of A (length (made A f)) s])).
  { destruct (sched A f) as [|[|] r]; congruence. }
  subst f'. unfold mem_inv in *. cbn [made tr]. rewrite after_app, I.
  assert (B : N.of_nat (length (made A f)) <? n = true) by (apply N.ltb_lt; lia).
  destruct s; cbn [event_of does mo]; rewrite B, not_taken by lia; cbn [negb andb];
    rewrite app_length; cbn [length]; rewrite seq_app; cbn [seq Nat.add]; rewrite combine_snoc by (rewrite seq_length; reflexivity); reflexivity.
Qed.
Lemma construct_threw : forall n f s e f', cons_ n f s = Threw A e f' -> mem_inv n f -> mem_inv n f' /\ e = Element.
Proof.
  intros n f s e f' H I. unfold construct in H.
  destruct (N.ltb_spec (N.of_nat (length (made A f))) n) as [L|L]; [|discriminate].
  destruct (sched A f) as [|[|] r]; [discriminate | | discriminate].
  injection H as <- <-. split; [exact I | reflexivity].
Qed.

Definition keeps (n : N) (g : filling A -> fill_end A) : Prop := forall f, mem_inv n f ->
  match g f with Filled _ f' => mem_inv n f' | Threw _ _ f' => mem_inv n f' | Over _ => True end.
Lemma keeps_all : forall n l, keeps n (fun f => call n f l).
Proof.
  intros n; induction l as [|s l IH]; intros f I; [exact I|]. cbn [construct_all].
  destruct (cons_ n f s) as [f1|e f1|] eqn:E.
  - apply IH. eapply construct_inv; eassumption.
  - eapply construct_threw in E; [|eassumption]. apply E.
  - exact Logic.I.
Qed.
Lemma keeps_each : forall n T (g : T -> filling A -> fill_end A), (forall x, keeps n (g x)) -> forall l, keeps n (each A T g l).
Proof.
  intros n T g G; induction l as [|s l IH]; intros f I; [exact I|]. cbn [each].
  pose proof (G s f I). destruct (g s f) as [f1|e f1|]; [apply IH; assumption | assumption | exact Logic.I].
Qed.
Lemma keeps_flat : forall n dim l, keeps n (copy_flat A fresh n dim l).
Proof.
  intros n dim l f I. unfold copy_flat. pose proof (keeps_all n (map (ByCopy A) l) f I) as H. cbv beta in H.
  destruct (call n f (map (ByCopy A) l)) as [f1|e f1|]; [| assumption | exact Logic.I].
  destruct (dim - N.of_nat (length l) =? 0); [assumption|].
  destruct (rev l) as [|v r]; [assumption|]. apply (keeps_all n _ f1 H).
Qed.
Lemma keeps_nested : forall n d sz l, keeps n (copy_nested A fresh n d sz l).
Proof.
  intros n; induction d as [|d IH]; intros sz l f I.
  - apply keeps_flat; assumption.
  - cbn [copy_nested]. destruct (hd 0 sz =? N.of_nat (length l)); [| assumption].
    apply keeps_each; [|assumption]. intros x. apply IH.
Qed.
Lemma keeps_rows : forall n d l, keeps n (fill_rows A fresh n d l).
Proof.
  intros n; induction d as [|d IH]; intros l f I.
  - apply keeps_all; assumption.
  - cbn [fill_rows]. apply keeps_each; [|assumption]. intros x. apply IH.
Qed.

Lemma unmake_all : forall n (l : list A) j t, after A fresh t = Some (Some (n, combine (seq j (length l)) l)) ->
  after A fresh (t ++ map (Unmake A) (seq j (length l)) ++ [Free A n]) = Some None.
Proof.
  intros n; induction l as [|x l IH]; intros j t H.
  - cbn [length seq map app]. rewrite after_app, H. cbn. rewrite N.eqb_refl. reflexivity.
  - cbn [length seq map app]. change (Unmake A j :: ?r) with ([Unmake A j] ++ r). rewrite app_assoc. apply IH.
    rewrite after_app, H. cbn [does combine seq length taken_place existsb fst].
    rewrite Nat.eqb_refl. cbn [orb filter fst]. rewrite Nat.eqb_refl. cbn [negb].
    f_equal. f_equal. f_equal.
    assert (G : forall (l : list A) i, (j < i)%nat -> filter (fun p => negb (Nat.eqb (fst p) j)) (combine (seq i (length l)) l) = combine (seq i (length l)) l).
    { induction l0 as [|y l0 IHl]; intros i Hi; [reflexivity|]. cbn. destruct (Nat.eqb_spec i j) as [E|E]; [lia|].
      cbn. rewrite IHl by lia. reflexivity. }
    apply G. lia.
Qed.
Lemma block_clean : forall sz n mem sch g, keeps n g ->
  (forall f, made A f = [] -> sched A f = sch -> g f <> Over A) -> clean A fresh (in_new_block A sz n mem sch g).
Proof.
  intros sz n mem sch g G U. unfold in_new_block. destruct mem; [|reflexivity].
  assert (I : mem_inv n (Filling A [] sch [Alloc A n])) by reflexivity.
  specialize (G _ I). specialize (U (Filling A [] sch [Alloc A n]) eq_refl eq_refl).
  destruct (g (Filling A [] sch [Alloc A n])) as [f|e f|].
  - cbn. eexists. split; [exact G|]. cbn. split; reflexivity.
  - cbn. apply unmake_all. exact G.
  - contradiction.
Qed.
Lemma any_clean : forall sz n r, clean A fresh r -> clean A fresh (if_any A sz n r).
Proof.
  intros sz n r H. unfold if_any. destruct sz as [|a [|b sz]]; [| assumption |];
    (destruct (n =? 0); [|assumption]; cbn; exists None; repeat split).
Qed.

(* a block filled with as many elements as it has places *)
Lemma block_exact : forall sz n mem sch (l : list (source A)), N.of_nat (length l) = n ->
  in_new_block A sz n mem sch (fun f => call n f l) =
    if mem then
      if throws n sch then in_new_block A sz n true sch (fun f => call n f l)
      else Made A (Vec A sz (map mo l) n) (Alloc A n :: events_from 0 l)
    else Failed A BadAlloc [].
Proof.
  intros sz n mem sch l H. destruct mem; [|reflexivity].
  destruct (throws n sch) eqn:T; [reflexivity|]. unfold in_new_block.
  destruct (call_fits n l (Filling A [] sch [Alloc A n])) as [F _]; [cbn; lia|].
  cbn [made sched tr length] in F. rewrite F; [reflexivity|]. rewrite H. exact T.
Qed.
Lemma block_threw : forall sz n sch (l : list (source A)), N.of_nat (length l) = n -> throws n sch = true ->
  exists t, in_new_block A sz n true sch (fun f => call n f l) = Failed A Element t.
Proof.
  intros sz n sch l H T. unfold in_new_block.
  destruct (call_fits n l (Filling A [] sch [Alloc A n])) as [_ F]; [cbn; lia|].
  cbn [made sched tr length] in F. destruct F as [f' ->]; [rewrite H; exact T|]. eexists; reflexivity.
Qed.
Lemma block_clean_list : forall sz n mem sch (l : list (source A)), N.of_nat (length l) <= n ->
  clean A fresh (in_new_block A sz n mem sch (fun f => call n f l)).
Proof.
  intros sz n mem sch l H. apply block_clean; [apply keeps_all|].
  intros f E1 E2. destruct (call_fits n l f) as [F1 F2]; [rewrite E1; cbn; lia|].
  destruct (throws (N.of_nat (length l)) (sched A f)).
  - destruct F2 as [f' ->]; [reflexivity|]. discriminate.
  - rewrite F1 by reflexivity. discriminate.
Qed.

(* ---- nested lists ---- *)
Lemma lengths_O : forall d (l : il A (S d)), lengths A 0 (S d) l = [N.of_nat (length l)].
Proof. reflexivity. Qed.
Lemma lengths_S : forall k d (l : il A (S d)), lengths A (S k) (S d) l = flat_map (lengths A k d) l.
Proof. reflexivity. Qed.

Definition deduced (d : nat) (l : il A d) (sz out : list N) : Prop :=
  length out = length sz /\ forall k, (k <= d)%nat ->
    nth k sz 0 <= nth k out 0 /\ (forall a, In a (lengths A k d l) -> a <= nth k out 0)
    /\ (nth k out 0 = nth k sz 0 \/ In (nth k out 0) (lengths A k d l)).
Lemma deduce_spec : forall d (l : il A d) sz, length sz = S d -> deduced d l sz (deduce A d l sz).
Proof.
  induction d as [|d IH]; intros l sz H; destruct sz as [|s r]; try discriminate; cbn [length] in H.
  - split; [reflexivity|]. intros k K. assert (k = 0)%nat by lia. subst k. cbn.
    repeat split; [lia | intros a [<- | []]; lia |]. destruct (N.max_spec s (N.of_nat (length l))) as [[_ ->] | [_ ->]]; tauto.
  - cbn [deduce].
    assert (G : forall (l : list (il A d)) r, length r = S d ->
      let out := fold_left (fun r sub => deduce A d sub r) l r in
      length out = S d /\ forall k, (k <= d)%nat ->
        nth k r 0 <= nth k out 0 /\ (forall a, In a (flat_map (lengths A k d) l) -> a <= nth k out 0)
        /\ (nth k out 0 = nth k r 0 \/ In (nth k out 0) (flat_map (lengths A k d) l))).
    { clear l r H. induction l as [|x l IHl]; intros r H; cbn [fold_left].
      - split; [exact H|]. intros k K. split; [lia|]. split; [intros a [] | left; reflexivity].
      - destruct (IH x r H) as [E1 E2]. destruct (IHl (deduce A d x r)) as [F1 F2]; [congruence|].
        split; [exact F1|]. intros k K. specialize (E2 k K). specialize (F2 k K).
        destruct E2 as (E2 & E3 & E4), F2 as (F2 & F3 & F4). repeat split.
        + lia.
        + intros a Ha. cbn [flat_map] in Ha. apply in_app_or in Ha as [Ha|Ha]; [specialize (E3 a Ha); lia | exact (F3 a Ha)].
        + cbn [flat_map]. destruct F4 as [F4|F4]; [| right; apply in_or_app; right; exact F4].
          rewrite F4. destruct E4 as [E4|E4]; [left; exact E4 | right; apply in_or_app; left; exact E4]. }
    destruct (G l r) as [G1 G2]; [lia|]. split; [cbn [length]; congruence|].
    intros [|k] K.
    + cbn [nth]. rewrite lengths_O. repeat split; [lia | intros a [<- | []]; lia |].
      destruct (N.max_spec s (N.of_nat (length l))) as [[_ ->] | [_ ->]]; [right; left | left]; reflexivity.
    + cbn [nth]. rewrite lengths_S. apply G2. lia.
Qed.
Lemma nth_repeat0 : forall n k, nth k (repeat 0 n) 0 = 0.
Proof. induction n as [|n IH]; intros [|k]; try reflexivity. apply IH. Qed.
Lemma sizes_spec : forall d (l : il A d), length (sizes_of A d l) = S d
  /\ forall k, (k <= d)%nat -> greatest (lengths A k d l) (nth k (sizes_of A d l) 0).
Proof.
  intros d l. destruct (deduce_spec d l (repeat 0 (S d))) as [E1 E2]; [apply repeat_length|].
  unfold sizes_of. split; [rewrite E1; apply repeat_length|]. intros k K. destruct (E2 k K) as (E3 & E4 & E5).
  split; [exact E4|]. destruct E5 as [E5|E5]; [right; rewrite E5; apply nth_repeat0 | left; exact E5].
Qed.

Definition bounded (d : nat) (sz : list N) (l : il A d) : Prop :=
  length sz = S d /\ forall k a, (k <= d)%nat -> In a (lengths A k d l) -> a <= nth k sz 0.
Lemma bounded_sub : forall d s r (l : il A (S d)) x, bounded (S d) (s :: r) l -> In x l -> bounded d r x.
Proof.
  intros d s r l x [H1 H2] Hx. split; [cbn in H1; lia|]. intros k a K Ha. apply (H2 (S k) a); [lia|].
  rewrite lengths_S. apply in_flat_map. exists x. split; assumption.
Qed.
Lemma sizes_bounded : forall d (l : il A d), bounded d (sizes_of A d l) l.
Proof. intros d l. destruct (sizes_spec d l) as [E1 E2]. split; [exact E1|]. intros k a K. apply (E2 k K). Qed.

Fixpoint fitsb (d : nat) : list N -> il A d -> bool :=
  match d with
  | O => fun sz l => match l with [] => hd 0 sz =? 0 | _ => true end
  | S d' => fun sz l => (hd 0 sz =? N.of_nat (length l)) && forallb (fitsb d' (tl sz)) l
  end.
Definition pad (l : list A) (dim : N) : list A :=
  match rev l with [] => l | v :: _ => l ++ repeat v (N.to_nat (dim - N.of_nat (length l))) end.
Fixpoint flat (d : nat) : list N -> il A d -> list A :=
  match d with
  | O => fun sz l => pad l (hd 0 sz)
  | S d' => fun sz l => flat_map (flat d' (tl sz)) l
  end.
Notation bc l := (map (ByCopy A) l).
Lemma flat_call : forall n d sz l f, fitsb d sz l = true ->
  copy_nested A fresh n d sz l f = call n f (bc (flat d sz l)).
Proof.
  intros n; induction d as [|d IH]; intros sz l f H.
  - cbn [copy_nested flat fitsb] in *. unfold copy_flat, pad.
    destruct (rev l) as [|v r] eqn:R.
    + assert (l = []) by (rewrite <- (rev_involutive l), R; reflexivity). subst l. cbn in H |- *.
      rewrite N.sub_0_r, H. reflexivity.
    + rewrite map_app, call_app. destruct (call n f (bc l)) as [f1|e f1|]; try reflexivity.
      destruct (N.eqb_spec (hd 0 sz - N.of_nat (length l)) 0) as [E|E].
      * rewrite E. reflexivity.
      * f_equal. generalize (N.to_nat (hd 0 sz - N.of_nat (length l))). induction n0 as [|m IHm]; [reflexivity|].
        cbn [repeat map]. rewrite IHm. reflexivity.
  - cbn [copy_nested flat fitsb] in *. apply andb_true_iff in H as [H1 H2]. rewrite H1. clear H1.
    revert f. induction l as [|x l IHl]; intros f; [reflexivity|].
    cbn [forallb] in H2. apply andb_true_iff in H2 as [H2 H3].
    cbn [each flat_map]. rewrite map_app, call_app, IH by exact H2.
    destruct (call n f (bc (flat d (tl sz) x))); try reflexivity. apply IHl. exact H3.
Qed.
Lemma flat_len : forall d sz l, bounded d sz l -> fitsb d sz l = true -> N.of_nat (length (flat d sz l)) = volume sz.
Proof.
  induction d as [|d IH]; intros sz l B H; pose proof B as [B1 B2]; destruct sz as [|s r]; try discriminate.
  - destruct r; [|discriminate]. specialize (B2 0%nat _ (Nat.le_refl _) (or_introl eq_refl)). cbn [nth] in B2.
    cbn [flat hd volume fold_right]. rewrite N.mul_1_r. unfold pad. destruct (rev l) as [|v q] eqn:R.
    + assert (l = []) by (rewrite <- (rev_involutive l), R; reflexivity). subst l. cbn in H |- *.
      apply N.eqb_eq in H. lia.
    + rewrite app_length, repeat_length. lia.
  - cbn [flat fitsb hd tl] in *. apply andb_true_iff in H as [H1 H2]. apply N.eqb_eq in H1.
    change (volume (s :: r)) with (s * volume r). rewrite H1. clear H1.
    assert (G : forall x, In x l -> bounded d r x) by (intros x Hx; eapply bounded_sub; eassumption).
    clear B B1 B2. induction l as [|x l IHl]; [reflexivity|].
    cbn [forallb] in H2. apply andb_true_iff in H2 as [H2 H3].
    cbn [flat_map length]. rewrite app_length, Nat2N.inj_add, IH; [| apply G; left; reflexivity | exact H2].
    rewrite IHl; [lia | exact H3 | intros y Hy; apply G; right; exact Hy].
Qed.
Lemma nth_flat_map : forall (X : Type) (g : X -> list A) m (l : list X) i j,
  (forall x, In x l -> length (g x) = m) -> (j < m)%nat ->
  nth_error (flat_map g l) (i * m + j) = match nth_error l i with Some x => nth_error (g x) j | None => None end.
Proof.
  intros X g m; induction l as [|x l IH]; intros i j H J.
  - destruct (i * m + j)%nat, i; reflexivity.
  - cbn [flat_map]. pose proof (H x (or_introl eq_refl)) as E. destruct i as [|i]; cbn [nth_error].
    + cbn [Nat.mul Nat.add]. apply nth_error_app1. lia.
    + rewrite nth_error_app2 by (cbn; lia). rewrite E.
      replace (S i * m + j - m)%nat with (i * m + j)%nat by (cbn; lia). apply IH; [intros; apply H; right; assumption | exact J].
Qed.
Lemma place_lt : forall sz idx, within sz idx -> place sz idx < volume sz.
Proof.
  intros sz idx H. induction H as [|i s idx sz H1 H2 IH]; [cbn; lia|].
  cbn [place]. change (volume (s :: sz)) with (s * volume sz). nia.
Qed.
Lemma written_S : forall d (l : list (il A d)) i j, written A (S d) l (i :: j) =
  match nth_error l (N.to_nat i) with Some sub => written A d sub j | None => None end.
Proof. reflexivity. Qed.
Lemma flat_nth : forall d sz l idx, bounded d sz l -> fitsb d sz l = true -> within sz idx ->
  nth_error (flat d sz l) (N.to_nat (place sz idx)) = written A d l idx.
Proof.
  induction d as [|d IH]; intros sz l idx B H W; pose proof B as [B1 B2]; destruct sz as [|s r]; try discriminate.
  - destruct r; [|discriminate]. inversion W as [|i ? j ? W1 W2]; subst. inversion W2; subst.
    cbn [place volume fold_right flat hd written]. rewrite N.mul_1_r, N.add_0_r.
    specialize (B2 0%nat _ (Nat.le_refl _) (or_introl eq_refl)). cbn [nth] in B2.
    unfold pad. destruct (rev l) as [|v q] eqn:R.
    + assert (l = []) by (rewrite <- (rev_involutive l), R; reflexivity). subst l. cbn in H. apply N.eqb_eq in H. lia.
    + cbn [hd_error]. destruct (Nat.lt_ge_cases (N.to_nat i) (length l)) as [L|L].
      * rewrite nth_error_app1 by exact L. destruct (nth_error l (N.to_nat i)) eqn:E; [reflexivity|].
        apply nth_error_None in E. lia.
      * rewrite nth_error_app2 by exact L. rewrite (proj2 (nth_error_None l (N.to_nat i)) L).
        apply nth_error_repeat. lia.
  - change (il A (S d)) with (list (il A d)) in l.
    inversion W as [|i ? j ? W1 W2]; subst. rewrite written_S. cbn [flat fitsb hd tl place] in *.
    apply andb_true_iff in H as [H1 H2]. rewrite forallb_forall in H2.
    replace (N.to_nat (i * volume r + place r j)) with (N.to_nat i * N.to_nat (volume r) + N.to_nat (place r j))%nat by lia.
    rewrite nth_flat_map with (m := N.to_nat (volume r)).
    + destruct (nth_error l (N.to_nat i)) as [x|] eqn:E; [|reflexivity].
      apply nth_error_In in E. apply IH; [eapply bounded_sub; eassumption | apply H2; exact E | exact W2].
    + intros x Hx. pose proof (flat_len d r x (bounded_sub d s r l x B Hx) (H2 x Hx)). lia.
    + pose proof (place_lt r j W2). lia.
Qed.

(* the same for lists that do not give an array *)
Lemma throws_add : forall a b sch, throws (a + b) sch = throws a sch || throws b (skipn (N.to_nat a) sch).
Proof.
  intros a b sch. unfold throws. rewrite N2Nat.inj_add. generalize (N.to_nat a) (N.to_nat b). clear a b.
  intros a b. revert a. induction sch as [|x sch IH]; intros [|a]; cbn; rewrite ?firstn_nil; try reflexivity.
  rewrite IH. apply orb_assoc.
Qed.
Lemma throws_le : forall a b sch, a <= b -> throws b sch = false -> throws a sch = false.
Proof.
  intros a b sch H T. replace b with (a + (b - a)) in T by lia. rewrite throws_add in T.
  apply orb_false_iff in T. apply T.
Qed.
Lemma nested_S : forall n d s r (l : list (il A d)) f, copy_nested A fresh n (S d) (s :: r) l f =
  if s =? N.of_nat (length l) then each A (il A d) (copy_nested A fresh n d r) l f else Threw A Argument f.
Proof. reflexivity. Qed.
Lemma fitsb_S : forall d s r (l : list (il A d)), fitsb (S d) (s :: r) l = (s =? N.of_nat (length l)) && forallb (fitsb d r) l.
Proof. reflexivity. Qed.
Lemma fits_not : forall n d sz l f, bounded d sz l -> fitsb d sz l = false ->
  N.of_nat (length (made A f)) + volume sz <= n -> throws (volume sz) (sched A f) = false ->
  exists f', copy_nested A fresh n d sz l f = Threw A Argument f'.
Proof.
  intros n; induction d as [|d IH]; intros sz l f B H L T; pose proof B as [B1 B2]; destruct sz as [|s r]; try discriminate.
  - cbn [fitsb hd] in H. destruct l as [|x l]; [|discriminate].
    cbn. unfold copy_flat. cbn. rewrite N.sub_0_r, H. eexists; reflexivity.
  - change (il A (S d)) with (list (il A d)) in l. rewrite nested_S. rewrite fitsb_S in H.
    destruct (N.eqb_spec s (N.of_nat (length l))) as [E|E]; [|eexists; reflexivity].
    cbn [andb] in H. change (volume (s :: r)) with (s * volume r) in *. subst s.
    assert (G : forall x, In x l -> bounded d r x) by (intros x Hx; eapply bounded_sub; eassumption).
    clear B B1 B2. revert f L T. induction l as [|x l IHl]; intros f L T; [discriminate|].
    cbn [forallb each length] in *. rewrite Nat2N.inj_succ in *.
    assert (T1 : throws (volume r) (sched A f) = false) by (eapply throws_le; [|exact T]; lia).
    destruct (fitsb d r x) eqn:F.
    + cbn [andb] in H. rewrite flat_call by exact F.
      pose proof (flat_len d r x (G x (or_introl eq_refl)) F) as K.
      destruct (call_fits n (bc (flat d r x)) f) as [C _]; [rewrite map_length; lia|].
      rewrite map_length, K in C. rewrite (C T1). clear C.
      apply IHl; [exact H | intros y Hy; apply G; right; exact Hy | |].
      * cbn [made]. rewrite app_length, !map_length. lia.
      * cbn [sched]. replace (N.succ (N.of_nat (length l)) * volume r) with (volume r + N.of_nat (length l) * volume r) in T by lia.
        rewrite throws_add in T. apply orb_false_iff in T as [_ T]. replace (N.to_nat (volume r)) with (length (flat d r x)) in T by lia. exact T.
    + destruct (IH r x f (G x (or_introl eq_refl)) F) as [f' ->]; [lia | exact T1 |]. eexists; reflexivity.
Qed.
Lemma nested_end : forall n d sz l f, bounded d sz l -> N.of_nat (length (made A f)) + volume sz <= n ->
  match copy_nested A fresh n d sz l f with
  | Filled _ f' => N.of_nat (length (made A f')) = N.of_nat (length (made A f)) + volume sz
  | Threw _ e _ => e = Argument \/ e = Element
  | Over _ => False
  end.
Proof.
  intros n; induction d as [|d IH]; intros sz l f B L; pose proof B as [B1 B2]; destruct sz as [|s r]; try discriminate.
  - destruct (fitsb 0 (s :: r) l) eqn:F.
    + rewrite flat_call by exact F. pose proof (flat_len 0 _ l B F) as K.
      destruct (call_fits n (bc (flat 0 (s :: r) l)) f) as [C1 C2]; [rewrite map_length; lia|].
      destruct (throws (N.of_nat (length (bc (flat 0 (s :: r) l)))) (sched A f)).
      * destruct C2 as [f' ->]; [reflexivity|]. right; reflexivity.
      * rewrite C1 by reflexivity. cbn [made]. rewrite app_length, !map_length. lia.
    + cbn in F. destruct l; [|discriminate]. cbn. unfold copy_flat. cbn. rewrite N.sub_0_r, F. left; reflexivity.
  - change (il A (S d)) with (list (il A d)) in l. rewrite nested_S.
    destruct (N.eqb_spec s (N.of_nat (length l))) as [E|E]; [| left; reflexivity].
    change (volume (s :: r)) with (s * volume r) in *. subst s.
    assert (G : forall x, In x l -> bounded d r x) by (intros x Hx; eapply bounded_sub; eassumption).
    clear B B1 B2. revert f L. induction l as [|x l IHl]; intros f L; cbn [each length]; [lia|].
    cbn [length] in L. rewrite Nat2N.inj_succ in *.
    pose proof (IH r x f (G x (or_introl eq_refl))) as C. specialize (C ltac:(lia)).
    destruct (copy_nested A fresh n d r x f) as [f1|e f1|]; [| exact C | exact C].
    specialize (IHl (fun y Hy => G y (or_intror Hy)) f1 ltac:(lia)).
    destruct (each A (il A d) (copy_nested A fresh n d r) l f1) as [f2|e f2|]; [lia | exact IHl | exact IHl].
Qed.

Lemma fits_regular : forall d sz l, bounded d sz l -> volume sz <> 0 -> fitsb d sz l = true ->
  (forall k a, (k < d)%nat -> In a (lengths A k d l) -> a = nth k sz 0) /\ (forall a, In a (lengths A d d l) -> a <> 0).
Proof.
  induction d as [|d IH]; intros sz l B V F; pose proof B as [B1 B2]; destruct sz as [|s r]; try discriminate.
  - split; [intros k a K; lia|]. intros a [<- | []]. destruct l as [|x l]; [|cbn; lia].
    cbn in F. apply N.eqb_eq in F. change (volume (s :: r)) with (s * volume r) in V. rewrite F in V. lia.
  - change (il A (S d)) with (list (il A d)) in l. cbn [fitsb hd tl] in F.
    apply andb_true_iff in F as [F1 F2]. apply N.eqb_eq in F1. rewrite forallb_forall in F2.
    change (volume (s :: r)) with (s * volume r) in V. split.
    + intros [|k] a K Ha.
      * destruct Ha as [<- | []]. cbn. congruence.
      * rewrite lengths_S in Ha. apply in_flat_map in Ha as (x & Hx & Ha).
        destruct (IH r x (bounded_sub d s r l x B Hx)) as [G _]; [lia | apply F2; exact Hx |]. apply (G k a); [lia | exact Ha].
    + intros a Ha. rewrite lengths_S in Ha. apply in_flat_map in Ha as (x & Hx & Ha).
      destruct (IH r x (bounded_sub d s r l x B Hx)) as [_ G]; [lia | apply F2; exact Hx |]. apply (G a). exact Ha.
Qed.
Lemma regular_fits : forall d sz l, length sz = S d ->
  (forall k a, (k < d)%nat -> In a (lengths A k d l) -> a = nth k sz 0) -> (forall a, In a (lengths A d d l) -> a <> 0) ->
  fitsb d sz l = true.
Proof.
  induction d as [|d IH]; intros sz l L H1 H2; destruct sz as [|s r]; try discriminate.
  - cbn. destruct l; [|reflexivity]. exfalso. apply (H2 0); [left; reflexivity | reflexivity].
  - change (il A (S d)) with (list (il A d)) in l. cbn [fitsb hd tl]. apply andb_true_iff. split.
    + apply N.eqb_eq. specialize (H1 0%nat _ ltac:(lia) (or_introl eq_refl)). cbn [nth] in H1. congruence.
    + apply forallb_forall. intros x Hx. apply IH; [cbn in L; lia | |].
      * intros k a K Ha. apply (H1 (S k) a); [lia|]. rewrite lengths_S. apply in_flat_map. exists x. split; assumption.
      * intros a Ha. apply (H2 a). rewrite lengths_S. apply in_flat_map. exists x. split; assumption.
Qed.
Lemma volume_nth : forall sz k, (k < length sz)%nat -> volume sz <> 0 -> nth k sz 0 <> 0.
Proof.
  induction sz as [|s r IH]; intros k K V; [cbn in K; lia|].
  change (volume (s :: r)) with (s * volume r) in V. destruct k as [|k]; cbn [nth]; [nia|].
  apply IH; [cbn in K; lia | nia].
Qed.
Lemma fits_iff : forall d l, volume (sizes_of A d l) <> 0 ->
  (fitsb d (sizes_of A d l) l = true <-> regular A d l).
Proof.
  intros d l V. destruct (sizes_spec d l) as [S1 S2]. split.
  - intros F. destruct (fits_regular d _ l (sizes_bounded d l) V F) as [G1 G2]. split; [|exact G2].
    intros k a b K Ha Hb. rewrite (G1 k a K Ha), (G1 k b K Hb). reflexivity.
  - intros [R1 R2]. apply regular_fits; [exact S1 | | exact R2].
    intros k a K Ha. destruct (S2 k ltac:(lia)) as [_ [G|G]].
    + apply (R1 k); assumption.
    + exfalso. revert G. apply volume_nth; [lia | exact V].
Qed.

(* ---- rows ---- *)
Lemma rows_call : forall n d l f, fill_rows A fresh n d l f = call n f (bc (leaves A d l)).
Proof.
  intros n; induction d as [|d IH]; intros l f; [reflexivity|].
  cbn [fill_rows leaves]. change (il A (S d)) with (list (il A d)) in l.
  revert f. induction l as [|x l IHl]; intros f; [reflexivity|].
  cbn [each flat_map]. rewrite map_app, call_app, IH. destruct (call n f (bc (leaves A d x))); try reflexivity. apply IHl.
Qed.
Lemma leaves_len : forall d sz l, box A d sz l -> N.of_nat (length (leaves A d l)) = volume sz.
Proof.
  induction d as [|d IH]; intros sz l [B1 B2]; destruct sz as [|s r]; try discriminate.
  - destruct r; [|discriminate]. specialize (B2 0%nat _ (Nat.le_refl _) (or_introl eq_refl)). cbn in B2 |- *.
    injection B2 as ->. lia.
  - change (il A (S d)) with (list (il A d)) in l. cbn [leaves].
    pose proof (B2 0%nat _ ltac:(lia) (or_introl eq_refl)) as E. cbn [nth_error] in E. injection E as ->.
    change (volume (N.of_nat (length l) :: r)) with (N.of_nat (length l) * volume r).
    assert (G : forall x, In x l -> box A d r x).
    { intros x Hx. split; [cbn in B1; lia|]. intros k a K Ha. apply (B2 (S k) a); [lia|].
      rewrite lengths_S. apply in_flat_map. exists x. split; assumption. }
    clear B1 B2. induction l as [|x l IHl]; [reflexivity|].
    cbn [flat_map length]. rewrite app_length, Nat2N.inj_add, (IH r x (G x (or_introl eq_refl))), Nat2N.inj_succ.
    rewrite IHl; [lia | intros y Hy; apply G; right; exact Hy].
Qed.
Lemma leaves_nth : forall d sz l idx, box A d sz l -> within sz idx ->
  nth_error (leaves A d l) (N.to_nat (place sz idx)) = written A d l idx.
Proof.
  induction d as [|d IH]; intros sz l idx B W; pose proof B as [B1 B2]; destruct sz as [|s r]; try discriminate.
  - destruct r; [|discriminate]. inversion W as [|i ? j ? W1 W2]; subst. inversion W2; subst.
    cbn [place volume fold_right leaves written]. rewrite N.mul_1_r, N.add_0_r.
    specialize (B2 0%nat _ (Nat.le_refl _) (or_introl eq_refl)). cbn in B2. injection B2 as B2.
    destruct (nth_error l (N.to_nat i)) eqn:E; [reflexivity|]. apply nth_error_None in E. lia.
  - change (il A (S d)) with (list (il A d)) in l.
    inversion W as [|i ? j ? W1 W2]; subst. rewrite written_S. cbn [leaves place].
    assert (G : forall x, In x l -> box A d r x).
    { intros x Hx. split; [cbn in B1; lia|]. intros k a K Ha. apply (B2 (S k) a); [lia|].
      rewrite lengths_S. apply in_flat_map. exists x. split; assumption. }
    replace (N.to_nat (i * volume r + place r j)) with (N.to_nat i * N.to_nat (volume r) + N.to_nat (place r j))%nat by lia.
    rewrite nth_flat_map with (m := N.to_nat (volume r)).
    + destruct (nth_error l (N.to_nat i)) as [x|] eqn:E; [|reflexivity].
      apply nth_error_In in E. apply IH; [apply G; exact E | exact W2].
    + intros x Hx. pose proof (leaves_len d r x (G x Hx)). lia.
    + pose proof (place_lt r j W2). lia.
Qed.

(* ---- constructors ---- *)
Lemma throws_first : forall n sch, throws n sch = true ->
  exists k, (k < N.to_nat n)%nat /\ nth k sch false = true /\ forall i, (i < k)%nat -> nth i sch false = false.
Proof.
  intros n sch. unfold throws. generalize (N.to_nat n). clear n. intros n; revert sch.
  induction n as [|n IH]; intros [|[|] r] H; try discriminate.
  - exists 0%nat. repeat split; [lia | intros i Hi; lia].
  - cbn in H. destruct (IH r H) as (k & K1 & K2 & K3). exists (S k). repeat split; [lia | exact K2 |].
    intros [|i] Hi; [reflexivity|]. apply K3. lia.
Qed.
Lemma range_builds : forall sz (l : list (source A)), builds A fresh (fun mem sch => in_new_block A sz (N.of_nat (length l)) mem sch (fun f => call (N.of_nat (length l)) f l)) sz (map mo l).
Proof.
  intros sz l mem sch. split; [apply block_clean_list; lia|]. rewrite map_length. repeat split.
  - intros -> T. rewrite (block_exact sz _ true sch l eq_refl), T. eexists; reflexivity.
  - intros -> T. apply block_threw; [reflexivity | exact T].
  - intros -> _. reflexivity.
Qed.
Lemma any_builds : forall sz r c, builds A fresh r sz c -> sz <> [] ->
  builds A fresh (fun mem sch => if_any A sz (N.of_nat (length c)) (r mem sch)) sz c.
Proof.
  intros sz r c H N0 mem sch. destruct (H mem sch) as (H1 & H2 & H3 & H4).
  split; [apply any_clean; exact H1|]. unfold if_any.
  destruct sz as [|a [|b sz]]; [contradiction | repeat split; assumption |].
  destruct (N.eqb_spec (N.of_nat (length c)) 0) as [E|E]; [|repeat split; assumption].
  destruct c as [|x c]; [|cbn in E; lia]. repeat split.
  - intros _ _. eexists; reflexivity.
  - intros _ T. discriminate.
  - intros _ T. contradiction.
Qed.
Lemma builds_ext : forall r r' sz c, (forall mem sch, r mem sch = r' mem sch) -> builds A fresh r sz c -> builds A fresh r' sz c.
Proof. intros r r' sz c E H mem sch. rewrite <- E. apply H. Qed.
Lemma map_repeat_mo : forall s n, map mo (repeat s n) = repeat (mo s) n.
Proof. intros s n; induction n as [|n IH]; [reflexivity|]. cbn. rewrite IH. reflexivity. Qed.
Lemma value_builds : forall sz n s,
  builds A fresh (fun mem sch => in_new_block A sz n mem sch (fill_value A fresh n s)) sz (repeat (mo s) (N.to_nat n)).
Proof.
  intros sz n s. rewrite <- map_repeat_mo.
  refine (builds_ext _ _ sz _ _ (range_builds sz (repeat s (N.to_nat n)))).
  intros mem sch. rewrite repeat_length, N2Nat.id. reflexivity.
Qed.
Lemma sizes_builds : forall sz s, sz <> [] -> volume sz < size_mod ->
  builds A fresh (make_sizes A fresh sz s) sz (repeat (mo s) (N.to_nat (volume sz))).
Proof.
  intros sz s N0 L. pose proof (any_builds _ _ _ (value_builds sz (volume sz) s) N0) as H.
  refine (builds_ext _ _ sz _ _ H). intros mem sch. rewrite repeat_length, N2Nat.id.
  unfold make_sizes. rewrite total_exact by assumption. reflexivity.
Qed.
Lemma map_mo_bc : forall l, map mo (bc l) = l.
Proof. induction l as [|x l IH]; [reflexivity|]. cbn. rewrite IH. reflexivity. Qed.
Lemma copy_builds : forall sz (l : list A), builds A fresh (fun mem sch => from_range A fresh sz (N.of_nat (length l)) (bc l) mem sch) sz l.
Proof.
  intros sz l. pose proof (range_builds sz (bc l)) as H. rewrite map_mo_bc, map_length in H. exact H.
Qed.
Lemma ilist_builds : forall d (l : il A d), volume (sizes_of A d l) < size_mod -> volume (sizes_of A d l) <> 0 ->
  regular A d l -> builds A fresh (make_ilist A fresh d l) (sizes_of A d l) (flat d (sizes_of A d l) l).
Proof.
  intros d l L V R. apply fits_iff in R; [|exact V]. pose proof (sizes_bounded d l) as B.
  pose proof (flat_len d _ l B R) as K. destruct B as [B _].
  pose proof (copy_builds (sizes_of A d l) (flat d (sizes_of A d l) l)) as H.
  apply any_builds in H; [| intros E; rewrite E in B; discriminate].
  refine (builds_ext _ _ _ _ _ H). intros mem sch. rewrite K. unfold make_ilist.
  rewrite total_exact; [| intros E; rewrite E in B; discriminate | exact L].
  f_equal. unfold from_range, in_new_block. destruct mem; [|reflexivity].
  rewrite flat_call by exact R. reflexivity.
Qed.
Lemma rows_builds : forall d (r : rows A d), box A d (row_sizes A d r) (nested A d r) ->
  (forall l, plain A d r = Some l -> l = leaves A d (nested A d r)) -> volume (row_sizes A d r) < size_mod ->
  builds A fresh (make_rows A fresh d r) (row_sizes A d r) (leaves A d (nested A d r)).
Proof.
  intros d r B P L. pose proof (leaves_len d _ _ B) as K. destruct B as [B _].
  pose proof (copy_builds (row_sizes A d r) (leaves A d (nested A d r))) as H.
  apply any_builds in H; [| intros E; rewrite E in B; discriminate].
  refine (builds_ext _ _ _ _ _ H). intros mem sch. rewrite K. unfold make_rows.
  rewrite total_exact; [| intros E; rewrite E in B; discriminate | exact L].
  f_equal. destruct (plain A d r) as [l|] eqn:E.
  - rewrite (P l eq_refl). reflexivity.
  - unfold from_range, in_new_block. destruct mem; [|reflexivity]. rewrite rows_call. reflexivity.
Qed.
Lemma signed_small : forall n, n < 2 ^ 63 -> signed n = Z.of_N n.
Proof. intros n H. unfold signed. destruct (Z.ltb_spec (Z.of_N n) (2 ^ 63)) as [L|L]; [reflexivity | lia]. Qed.
Lemma range_nd_builds : forall sz (l : list A), sz <> [] -> volume sz < 2 ^ 63 -> N.of_nat (length l) = volume sz ->
  builds A fresh (make_range A fresh sz l) sz l.
Proof.
  intros sz l N0 L E. pose proof (any_builds _ _ _ (copy_builds sz l) N0) as H.
  refine (builds_ext _ _ _ _ _ H). intros mem sch. unfold make_range.
  rewrite total_exact; [| exact N0 | unfold size_mod; lia].
  rewrite signed_small by exact L. destruct (Z.eqb_spec (Z.of_N (volume sz)) (Z.of_nat (length l))) as [Q|Q]; [|lia].
  rewrite E. reflexivity.
Qed.
Lemma range_nd_refused : forall sz (l : list A) mem sch, sz <> [] -> volume sz < 2 ^ 63 -> N.of_nat (length l) <> volume sz ->
  make_range A fresh sz l mem sch = Failed A Argument [].
Proof.
  intros sz l mem sch N0 L E. unfold make_range.
  rewrite total_exact; [| exact N0 | unfold size_mod; lia].
  rewrite signed_small by exact L. destruct (Z.eqb_spec (Z.of_N (volume sz)) (Z.of_nat (length l))) as [Q|Q]; [lia | reflexivity].
Qed.
Lemma moves_events : forall l k, length (filter (fun e => match e with Move _ _ _ => true | _ => false end) (events_from k (map (ByMove A) l))) = length l.
Proof.
  induction l as [|x l IH]; intros k; [reflexivity|]. unfold events_from in *. cbn. rewrite IH. reflexivity.
Qed.
Lemma copies_events : forall l k, filter (fun e => match e with Move _ _ _ => true | _ => false end) (events_from k (bc l)) = [].
Proof.
  induction l as [|x l IH]; intros k; [reflexivity|]. unfold events_from in *. cbn. apply IH.
Qed.
Lemma unmakes_moves : forall k n, filter (fun e => match e with Move _ _ _ => true | _ => false end) (map (Unmake A) (seq k n)) = [].
Proof. intros k n; revert k; induction n as [|n IH]; intros k; [reflexivity|]. cbn. apply IH. Qed.
Lemma map_mo_mv : forall l, map mo (map (ByMove A) l) = l.
Proof. induction l as [|x l IH]; [reflexivity|]. cbn. rewrite IH. reflexivity. Qed.
End P.
