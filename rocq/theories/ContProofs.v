(* Proofs about the conversion of containers. *)
From Coq Require Import Ascii List Bool Arith NArith ZArith Sorting.Sorted Lia.
From Verif Require Import ConvertModel ConvertSpec NarrowProofs ConfigModel ConfigSpec ConfigProofs ContModel ContSpec.
Import ListNotations.
Local Open Scope nat_scope.

Lemma ofold_app {A B} (f : A -> B -> out A) l1 : forall l2 a, ofold f (l1 ++ l2) a = obind (ofold f l1 a) (ofold f l2).
Proof. induction l1 as [|x l1 IH]; intros l2 a; cbn; auto. destruct (f a x); cbn; auto. Qed.
Lemma ofold_map {A B C} (f : A -> C -> out A) (h : B -> C) l : forall a, ofold f (map h l) a = ofold (fun a x => f a (h x)) l a.
Proof. induction l as [|x l IH]; intros a; cbn; auto. destruct (f a (h x)); cbn; auto. Qed.
Lemma ofold_ext {A B} (f g : A -> B -> out A) l : (forall a x, In x l -> f a x = g a x) -> forall a, ofold f l a = ofold g l a.
Proof.
  induction l as [|x l IH]; intros H a; cbn; auto.
  rewrite (H a x) by (left; auto). destruct (g a x); cbn; auto. apply IH. intros; apply H; right; auto.
Qed.

Section Reading.
Variables (exact : N -> option Z) (to_real : Z -> N) (real_to_string : N -> text) (real_of_string : text -> option N).
Notation load := (load exact to_real real_to_string real_of_string).
Notation entry_with := (entry_with exact to_real real_to_string real_of_string).
Notation entry_value := (entry_value exact to_real real_to_string real_of_string).
Notation fetch := (fetch exact to_real real_to_string real_of_string).

Lemma fetch_inject f (r : raw f) : fetch f (inject f r) = Some r.
Proof. destruct f; reflexivity. Qed.

(* ---- the result of reading any config ---- *)
Lemma entry_total {f A} (ld : raw f -> out A) s : (forall r, (exists a, ld r = Val a) \/ ld r = Error) -> exists o, entry_with ld s = Val o.
Proof.
  intros H. unfold ContModel.entry_with. destruct s as [v|]; eauto. destruct (fetch f v) as [r|]; eauto.
  destruct (H r) as [[a E]|E]; rewrite E; eauto.
Qed.

(* reading a sequence of entries, stopping at the first unreadable one *)
Fixpoint readable {A} (rd : slot -> out (option A)) (l : list (str * slot)) : option (list (str * A)) :=
  match l with
  | [] => Some []
  | (k, s) :: t => match rd s with
                   | Val (Some a) => match readable rd t with Some r => Some ((k, a) :: r) | None => None end
                   | _ => None
                   end
  end.


Lemma read_fold_throw {A B} (rd : slot -> out (option A)) (acc : B -> str -> A -> B) l :
  (forall s, exists o, rd s = Val o) -> forall b,
  ofold (fun b e => obind (rd (snd e)) (fun o => obind (get_or_throw o) (fun x => Val (acc b (fst e) x)))) l b =
  match readable rd l with Some r => Val (fold_left (fun b e => acc b (fst e) (snd e)) r b) | None => Error end.
Proof.
  intros T. induction l as [|[k s] l IH]; intros b; cbn [ofold readable fold_left fst snd]; auto.
  destruct (T s) as [o E]. rewrite E. cbn [obind]. destruct o as [a|]; cbn [get_or_throw obind]; auto.
  rewrite IH. destruct (readable rd l); auto.
Qed.
Lemma read_fold_get {A B} (rd : slot -> out (option A)) (acc : B -> str -> A -> B) l :
  (forall s, exists o, rd s = Val o) -> forall b,
  ofold (fun b e => obind (rd (snd e)) (fun o => obind (get_ o) (fun x => Val (acc b (fst e) x)))) l b =
  match readable rd l with Some r => Val (fold_left (fun b e => acc b (fst e) (snd e)) r b) | None => BadAccess end.
Proof.
  intros T. induction l as [|[k s] l IH]; intros b; cbn [ofold readable fold_left fst snd]; auto.
  destruct (T s) as [o E]. rewrite E. cbn [obind]. destruct o as [a|]; cbn [get_ obind]; auto.
  rewrite IH. destruct (readable rd l); auto.
Qed.
Lemma fold_iterate_o {B} (f : B -> str * slot -> out B) c b :
  ofold (fun b e => f b (kv e)) (iterate c) b = ofold f (match c with Some c => centries c | None => [] end) b.
Proof.
  rewrite <- ofold_map. destruct c as [c|]; [|reflexivity]. rewrite iterate_kv. reflexivity.
Qed.
Definition entries (c : option conf) : list (str * slot) := match c with Some c => centries c | None => [] end.

Lemma fold_snoc {A} (r : list (str * A)) : forall l, fold_left (fun b e => b ++ [snd e]) r l = l ++ map snd r.
Proof. induction r as [|e r IH]; intros l; cbn; [rewrite app_nil_r; auto|]. rewrite IH, <- app_assoc. auto. Qed.

(* a load gives a value or a config_error *)
Lemma load_total t : forall r, (exists v, load t r = Val v) \/ load t r = Error.
Proof.
  induction t as [s n| | | | |t IH|t IH|w t IH]; intros r; cbn [ContModel.load]; eauto.
  - pose proof (fun s => entry_total (load t) s IH) as T.
    rewrite (fold_iterate_o (fun l e => obind (entry_with (load t) (snd e)) (fun o => obind (get_or_throw o) (fun x => Val (l ++ [x]))))).
    rewrite (read_fold_throw _ (fun l _ x => l ++ [x])) by auto. destruct (readable _ _); eauto.
  - destruct (assoc_b r); auto. pose proof (fun s => entry_total (load t) s IH) as T.
    rewrite (fold_iterate_o (fun l e => obind (entry_with (load t) (snd e)) (fun o => obind (get_or_throw o) (fun x => Val (map_emplace (fst e) x l))))).
    rewrite (read_fold_throw _ (fun l k x => map_emplace k x l)) by auto. destruct (readable _ _); eauto.
  - destruct (IH r) as [[v E]|E]; rewrite E; cbn [obind]; eauto.
Qed.
Lemma value_total t s : exists o, entry_value t s = Val o.
Proof. apply entry_total, load_total. Qed.

Lemma load_vec t c : load (TVec t) c =
  match readable (entry_value t) (entries c) with Some r => Val (map snd r) | None => Error end.
Proof.
  cbn [ContModel.load].
  rewrite (fold_iterate_o (fun l e => obind (entry_with (load t) (snd e)) (fun o => obind (get_or_throw o) (fun x => Val (l ++ [x]))))).
  rewrite (read_fold_throw _ (fun l _ x => l ++ [x])) by apply value_total. fold (entries c).
  change (entry_with (load t)) with (entry_value t). destruct (readable _ _); auto. rewrite fold_snoc. auto.
Qed.
Lemma load_map t c : load (TMap t) c =
  if assoc_b c then match readable (entry_value t) (entries c) with
                    | Some r => Val (fold_left (fun l e => map_emplace (fst e) (snd e) l) r [])
                    | None => Error end
  else Error.
Proof.
  cbn [ContModel.load]. destruct (assoc_b c); auto.
  rewrite (fold_iterate_o (fun l e => obind (entry_with (load t) (snd e)) (fun o => obind (get_or_throw o) (fun x => Val (map_emplace (fst e) x l))))).
  rewrite (read_fold_throw _ (fun l k x => map_emplace k x l)) by apply value_total. fold (entries c).
  change (entry_with (load t)) with (entry_value t). reflexivity.
Qed.
Lemma to_vector_eq t c : to_vector exact to_real real_to_string real_of_string t c =
  match readable (entry_value t) (entries c) with Some r => Val (map snd r) | None => BadAccess end.
Proof.
  unfold to_vector.
  rewrite (fold_iterate_o (fun l e => obind (entry_value t (snd e)) (fun o => obind (get_ o) (fun x => Val (l ++ [x]))))).
  rewrite (read_fold_get _ (fun l _ x => l ++ [x])) by apply value_total. fold (entries c).
  destruct (readable _ _); auto. rewrite fold_snoc. auto.
Qed.
Lemma to_map_eq t c : to_map exact to_real real_to_string real_of_string t c =
  if assoc_b c then match readable (entry_value t) (entries c) with
                    | Some r => Val (fold_left (fun l e => map_emplace (fst e) (snd e) l) r [])
                    | None => BadAccess end
  else Error.
Proof.
  unfold to_map. destruct (assoc_b c); auto.
  rewrite (fold_iterate_o (fun l e => obind (entry_value t (snd e)) (fun o => obind (get_ o) (fun x => Val (map_emplace (fst e) x l))))).
  rewrite (read_fold_get _ (fun l k x => map_emplace k x l)) by apply value_total. reflexivity.
Qed.
Lemma to_multimap_eq t c : to_multimap exact to_real real_to_string real_of_string t c =
  if assoc_b c then match readable (entry_value t) (entries c) with
                    | Some r => Val (fold_left (fun l e => multimap_emplace (fst e) (snd e) l) r [])
                    | None => BadAccess end
  else Error.
Proof.
  unfold to_multimap. destruct (assoc_b c); auto.
  rewrite (fold_iterate_o (fun l e => obind (entry_value t (snd e)) (fun o => obind (get_ o) (fun x => Val (multimap_emplace (fst e) x l))))).
  rewrite (read_fold_get _ (fun l k x => multimap_emplace k x l)) by apply value_total. reflexivity.
Qed.

(* [readable] reads every entry or fails *)
Lemma readable_forall2 {A} (rd : slot -> out (option A)) l r : readable rd l = Some r <->
  Forall2 (fun e x => fst x = fst e /\ rd (snd e) = Val (Some (snd x))) l r.
Proof.
  revert r. induction l as [|[k s] l IH]; intros r; cbn [readable].
  - split; [intros [= <-]; constructor|]. inversion 1; auto.
  - split.
    + destruct (rd s) as [[a|]| | |] eqn:E; try discriminate. destruct (readable rd l) as [r'|]; [|discriminate].
      intros [= <-]. constructor; [cbn; auto|]. apply IH. auto.
    + inversion 1 as [|? [k' a] ? r' [K V] F]; subst. cbn in K, V. subst. rewrite V. apply IH in F. rewrite F. auto.
Qed.
Lemma readable_none {A} (rd : slot -> out (option A)) l : (forall s, exists o, rd s = Val o) ->
  readable rd l = None <-> exists k s, In (k, s) l /\ rd s = Val None.
Proof.
  intros T. induction l as [|[k s] l IH]; cbn [readable In].
  - split; [discriminate|]. intros (? & ? & [] & _).
  - destruct (T s) as [o E]. rewrite E. destruct o as [a|].
    + destruct (readable rd l) as [r|].
      * split; [discriminate|]. intros (k' & s' & [H|H] & N); [congruence|]. assert (X : Some r = None) by (apply IH; eauto). discriminate.
      * split; auto. intros _. destruct (proj1 IH eq_refl) as (k' & s' & H & N). eauto.
    + split; auto. intros _. exists k, s. auto.
Qed.

(* ---- maps ---- *)
Lemma emplace_snoc {A} k (v : A) l : Forall (fun y => slt y k) (map fst l) -> map_emplace k v l = l ++ [(k, v)].
Proof.
  induction l as [|[k' v'] l IH]; cbn; auto. inversion 1; subst.
  rewrite (proj2 (scmp_gt k k')) by auto. rewrite IH; auto.
Qed.
Lemma emplace_sorted {A} k (v : A) l : StronglySorted slt (map fst l) -> StronglySorted slt (map fst (map_emplace k v l)).
Proof.
  induction l as [|[k' v'] l IH]; cbn [map map_emplace fst]; intros S; [repeat constructor|].
  inversion S as [|? ? S' F]; subst. destruct (scmp k k') eqn:C; cbn [map fst]; auto.
  - apply scmp_lt in C. constructor; auto. constructor; auto. eapply Forall_impl; [|exact F]. intros; eapply slt_trans; eauto.
  - apply scmp_gt in C. constructor; auto.
    assert (X : forall x, In x (map fst (map_emplace k v l)) -> x = k \/ In x (map fst l)).
    { clear. induction l as [|[a b] l IH]; intros x; cbn [map_emplace map fst In]; [intuition|].
      destruct (scmp k a); cbn [map fst In]; [intuition|intuition|]. intros [E|I]; [auto|]. destruct (IH x I); auto. }
    apply Forall_forall. intros x I. apply X in I. destruct I as [->|I]; auto. rewrite Forall_forall in F; auto.
Qed.
Lemma first_of_emplace {A} k (v : A) l n : StronglySorted slt (map fst l) ->
  first_of n (map_emplace k v l) =
  if list_eq_dec ascii_dec k n then match first_of n l with Some x => Some x | None => Some v end else first_of n l.
Proof.
  induction l as [|[k' v'] l IH]; cbn [map map_emplace first_of fst]; intros S.
  - destruct (list_eq_dec ascii_dec k n); auto.
  - inversion S as [|? ? S' F]; subst. destruct (scmp k k') eqn:C; cbn [first_of].
    + apply scmp_eq in C. subst. destruct (list_eq_dec ascii_dec k' n); auto.
    + apply scmp_lt in C. destruct (list_eq_dec ascii_dec k n) as [->|]; auto.
      destruct (list_eq_dec ascii_dec k' n) as [->|N]; [destruct (slt_irrefl _ C)|].
      assert (X : first_of n l = None); [|rewrite X; auto].
      clear -F C. induction l as [|[a b] l IH]; cbn; auto. inversion F; subst. cbn in *.
      destruct (list_eq_dec ascii_dec a n) as [->|]; [|auto]. destruct (slt_irrefl n). eapply slt_trans; eauto.
    + apply scmp_gt in C. rewrite (IH S'). destruct (list_eq_dec ascii_dec k' n) as [->|]; auto.
      destruct (list_eq_dec ascii_dec k n) as [->|]; auto.
Qed.
Lemma emplace_all {A} (r : list (str * A)) : forall l, StronglySorted slt (map fst l) ->
  let m := fold_left (fun l e => map_emplace (fst e) (snd e) l) r l in
  StronglySorted slt (map fst m) /\
  forall n, first_of n m = match first_of n l with Some x => Some x | None => first_of n r end.
Proof.
  induction r as [|[k v] r IH]; intros l S; cbn [fold_left fst snd].
  - split; auto. intros n. destruct (first_of n l); auto.
  - destruct (IH (map_emplace k v l) (emplace_sorted k v l S)) as [S' E]. split; auto. intros n. rewrite E.
    rewrite first_of_emplace by auto. cbn [first_of].
    destruct (list_eq_dec ascii_dec k n) as [->|N]; destruct (first_of n l); auto.
Qed.
Lemma multi_sorted {A} k (v : A) l : StronglySorted sle (map fst l) -> StronglySorted sle (map fst (multimap_emplace k v l)).
Proof.
  assert (X : forall l x, In x (map fst (multimap_emplace k v l)) -> x = k \/ In x (map fst l)).
  { clear. induction l as [|[a b] l IH]; intros x; cbn [multimap_emplace map fst In]; [intuition|].
    destruct (scmp k a); cbn [map fst In]; [|intuition|]; (intros [E|I]; [auto|]; destruct (IH x I); auto). }
  induction l as [|[k' v'] l IH]; cbn [map multimap_emplace fst]; intros S; [repeat constructor|].
  inversion S as [|? ? S' F]; subst.
  assert (G : sle k' k -> StronglySorted sle (k' :: map fst (multimap_emplace k v l))).
  { intros L. constructor; auto. apply Forall_forall. intros x I. apply X in I. destruct I as [->|I]; auto. rewrite Forall_forall in F; auto. }
  destruct (scmp k k') eqn:C; cbn [map fst].
  - apply G. apply scmp_eq in C. right; auto.
  - apply scmp_lt in C. constructor; auto. constructor; [left; auto|]. eapply Forall_impl; [|exact F].
    intros; eapply sle_trans; [left; exact C|auto].
  - apply G. left. apply scmp_gt; auto.
Qed.
Lemma all_of_cons {A} n (e : str * A) l : all_of n (e :: l) = (if list_eq_dec ascii_dec (fst e) n then [snd e] else []) ++ all_of n l.
Proof. unfold all_of. cbn [filter]. unfold has_key at 1. destruct (list_eq_dec ascii_dec (fst e) n); auto. Qed.
Lemma all_of_none {A} n (l : list (str * A)) : ~ In n (map fst l) -> all_of n l = [].
Proof.
  induction l as [|e l IH]; auto. cbn [map In]. intros N. rewrite all_of_cons, IH by tauto.
  destruct (list_eq_dec ascii_dec (fst e) n); auto. tauto.
Qed.
Lemma all_of_emplace {A} k (v : A) l n : StronglySorted sle (map fst l) ->
  all_of n (multimap_emplace k v l) = all_of n l ++ (if list_eq_dec ascii_dec k n then [v] else []).
Proof.
  induction l as [|[k' v'] l IH]; cbn [map multimap_emplace fst]; intros S.
  - rewrite all_of_cons. cbn [fst snd]. rewrite app_nil_r. auto.
  - inversion S as [|? ? S' F]; subst.
    assert (G : all_of n ((k', v') :: multimap_emplace k v l) = all_of n ((k', v') :: l) ++ (if list_eq_dec ascii_dec k n then [v] else [])).
    { rewrite !all_of_cons, (IH S'). apply app_assoc. }
    destruct (scmp k k') eqn:C; auto. apply scmp_lt in C.
    assert (Y : forall x, In x (k' :: map fst l) -> slt k x).
    { intros x [<-|I]; auto. rewrite Forall_forall in F. destruct (F x I) as [L|<-]; auto. eapply slt_trans; eauto. }
    rewrite all_of_cons. cbn [fst snd]. destruct (list_eq_dec ascii_dec k n) as [->|]; [|cbn [app]; rewrite app_nil_r; auto].
    rewrite (all_of_none n ((k', v') :: l)); auto. cbn [map fst]. intros I. apply (slt_irrefl n), Y, I.
Qed.
Lemma multi_all {A} (r : list (str * A)) : forall l, StronglySorted sle (map fst l) ->
  let m := fold_left (fun l e => multimap_emplace (fst e) (snd e) l) r l in
  StronglySorted sle (map fst m) /\ forall n, all_of n m = all_of n l ++ all_of n r.
Proof.
  induction r as [|[k v] r IH]; intros l S; cbn [fold_left fst snd].
  - split; auto. intros n. unfold all_of at 3. cbn. rewrite app_nil_r. auto.
  - destruct (IH (multimap_emplace k v l) (multi_sorted k v l S)) as [S' E]. split; auto. intros n. rewrite E.
    rewrite all_of_emplace by auto. rewrite <- app_assoc, all_of_cons. auto.
Qed.

(* ---- round trip ---- *)
Lemma skip_hollow t v : skip t v = true <-> hollow t v.
Proof.
  destruct t; cbn [skip hollow]; try (split; [discriminate|intros []]). destruct v; split; intros H; auto; discriminate.
Qed.
Lemma hollow_absent t v : hollow t v -> present t v = false.
Proof. destruct t; cbn [hollow present]; intros H; try contradiction. rewrite H. auto. Qed.

Lemma entry_inject t r v : load t r = Val v -> entry_value t (Some (inject _ r)) = Val (Some v).
Proof. intros H. unfold ContModel.entry_value, ContModel.entry_with. rewrite fetch_inject, H. auto. Qed.

Definition stores t (v : den t) : Prop :=
  exists r, store t v = Val r /\ load t r = Val (pruned t v) /\ ignored (inject _ r) = negb (present t v).

Lemma store_vec_fold t l : (forall x, In x l -> hollow t x \/ stores t x) -> forall es,
  exists es', ofold (fun b v => if skip t v then Val b else obind (store t v) (fun r => builder_add b (inject _ r))) l (Conf KArray es) =
    Val (Conf KArray (es ++ es')) /\
    Forall2 (fun e x => fst x = fst e /\ entry_value t (snd e) = Val (Some (snd x))) es' (map (fun x => ([], pruned t x)) (filter (present t) l)).
Proof.
  induction l as [|x l IH]; intros H es; cbn [ofold filter map].
  - exists []. rewrite app_nil_r. split; auto.
  - assert (H' : forall y, In y l -> hollow t y \/ stores t y) by (intros; apply H; right; auto).
    destruct (skip t x) eqn:K.
    + cbn [obind]. apply skip_hollow in K. rewrite (hollow_absent _ _ K). apply IH; auto.
    + destruct (H x (or_introl eq_refl)) as [N|(r & E & L & I)]; [apply skip_hollow in N; congruence|].
      rewrite E. cbn [obind]. assert (B : builder_add (Conf KArray es) (inject _ r) = if negb (present t x) then Val (Conf KArray es) else lift (add (Conf KArray es) (Some (inject _ r)))) by (unfold builder_add; rewrite I; auto).
      rewrite B.
      destruct (present t x) eqn:P; cbn [negb].
      * cbn [add lift obind]. destruct (IH H' (es ++ [([], Some (inject _ r))])) as (es' & F & G).
        exists (([], Some (inject _ r)) :: es'). split; [etransitivity; [exact F|]; rewrite <- app_assoc; auto|]. cbn [map]. constructor; auto.
        split; auto. cbn [fst snd]. apply entry_inject; auto.
      * cbn [obind]. apply IH; auto.
Qed.
Lemma store_map_fold t l : (forall k x, In (k, x) l -> hollow t x \/ stores t x) -> forall es,
  StronglySorted slt (map fst es ++ map fst l) ->
  exists es', ofold (fun b kv => if skip t (snd kv) then Val b else obind (store t (snd kv)) (fun r => builder_put b (fst kv) (inject _ r))) l (Conf KMap es) =
    Val (Conf KMap (es ++ es')) /\
    Forall2 (fun e x => fst x = fst e /\ entry_value t (snd e) = Val (Some (snd x))) es'
      (map (fun e => (fst e, pruned t (snd e))) (filter (fun e => present t (snd e)) l)).
Proof.
  induction l as [|[k x] l IH]; intros H es S; cbn [ofold filter map fst snd].
  - exists []. rewrite app_nil_r. split; auto.
  - assert (H' : forall k y, In (k, y) l -> hollow t y \/ stores t y) by (intros; eapply H; right; eauto).
    cbn [map fst] in S.
    assert (S2 : StronglySorted slt (map fst es ++ map fst l)).
    { apply (sublist_sorted slt _ _ (sublist_app _ _ _ _ (sublist_refl _) (sub_skip k _ _ (sublist_refl _))) S). }
    destruct (skip t x) eqn:K.
    + cbn [obind]. apply skip_hollow in K. rewrite (hollow_absent _ _ K). apply IH; auto.
    + destruct (H k x (or_introl eq_refl)) as [N|(r & E & L & I)]; [apply skip_hollow in N; congruence|].
      rewrite E. cbn [obind]. assert (B : builder_put (Conf KMap es) k (inject _ r) = if negb (present t x) then Val (Conf KMap es) else lift (put (Conf KMap es) k (Some (inject _ r)))) by (unfold builder_put; rewrite I; auto).
      rewrite B.
      destruct (present t x) eqn:P; cbn [negb].
      * cbn [put lift]. rewrite map_put_snoc.
        2:{ apply (sorted_app slt). apply (sublist_sorted slt _ (map fst es ++ k :: map fst l)); auto.
            apply sublist_app; [apply sublist_refl|]. apply sub_keep, sublist_nil. }
        cbn [obind]. destruct (IH H' (es ++ [(k, Some (inject _ r))])) as (es' & F & G).
        { rewrite map_app, <- app_assoc. exact S. }
        exists ((k, Some (inject _ r)) :: es'). split; [etransitivity; [exact F|]; rewrite <- app_assoc; auto|]. cbn [map]. constructor; auto.
        split; auto. cbn [fst snd]. apply entry_inject; auto.
      * cbn [obind]. apply IH; auto.
Qed.

Lemma emplace_sorted_id {A} (l : list (str * A)) : forall acc, StronglySorted slt (map fst acc ++ map fst l) ->
  fold_left (fun l e => map_emplace (fst e) (snd e) l) l acc = acc ++ l.
Proof.
  induction l as [|[k v] l IH]; intros acc S; cbn [fold_left fst snd]; [rewrite app_nil_r; auto|].
  cbn [map fst] in S. rewrite emplace_snoc.
  - rewrite IH; [rewrite <- app_assoc; auto|]. rewrite map_app, <- app_assoc. exact S.
  - apply (sorted_app slt). apply (sublist_sorted slt _ (map fst acc ++ k :: map fst l)); auto.
    apply sublist_app; [apply sublist_refl|]. apply sub_keep, sublist_nil.
Qed.
Lemma pruned_keys_sorted t (l : list (str * den t)) : StronglySorted slt (map fst l) ->
  StronglySorted slt (map fst (map (fun e => (fst e, pruned t (snd e))) (filter (fun e => present t (snd e)) l))).
Proof.
  intros S. rewrite map_map. cbn [fst]. eapply sublist_sorted; [|exact S]. apply sublist_map, sublist_filter.
Qed.

Lemma round_trip t : proper_ty t -> forall v, valid t v -> storable t v -> stores t v.
Proof.
  induction t as [s n| | | | |t IH|t IH|w t IH]; cbn [proper_ty]; intros W v V S; unfold stores.
  - exists (cast int64 v). split; [auto|]. split; [|auto]. change (@Val Z (cast (Int s n) (cast (Int true 64) v)) = @Val Z v). rewrite (cast_cast s n 64); auto; lia.
  - exists v. auto.
  - exists v. auto.
  - exists v. auto.
  - exists v. cbn. destruct v; auto.
  - cbn [valid storable] in V, S. destruct (store_vec_fold t v) with (es := @nil (str * option (val_ conf))) as (es' & E & F).
    { intros x I. rewrite Forall_forall in V, S. destruct (S x I); auto. }
    cbn [store]. rewrite E. cbn [obind app]. exists (Some (Conf KArray es')). split; auto. split; auto.
    rewrite load_vec. cbn [entries centries]. apply readable_forall2 in F. rewrite F. cbn [pruned]. rewrite map_map. auto.
  - cbn [valid storable] in V, S. destruct V as [O V]. destruct (store_map_fold t v) with (es := @nil (str * option (val_ conf))) as (es' & E & F); auto.
    { intros k x I. rewrite Forall_forall in V, S. specialize (V _ I). destruct (S _ I); auto. }
    cbn [store]. rewrite E. cbn [obind app]. exists (Some (Conf KMap es')). split; auto. split; auto.
    rewrite load_map. cbn [entries centries assoc_b is_assoc ckind]. apply readable_forall2 in F. rewrite F. cbn [pruned].
    rewrite emplace_sorted_id; auto. apply (pruned_keys_sorted t). auto.
  - cbn [valid storable] in V, S. destruct v as [x|]; [|destruct S]. destruct (IH W x (V x eq_refl) S) as (r & E & L & I).
    exists r. cbn [store ContModel.load pruned option_map present]. rewrite L. auto.
Qed.

Lemma full_storable t : forall v, full t v -> present t v = true -> storable t v.
Proof.
  induction t as [s n| | | | |t IH|t IH|w t IH]; cbn [full storable present]; intros v F P; auto.
  - eapply Forall_impl; [|exact F]. cbn. intros x [P' F']. auto.
  - eapply Forall_impl; [|exact F]. cbn. intros x [P' F']. auto.
  - destruct v as [x|]; [|discriminate]. auto.
Qed.
Lemma filter_id {A} (p : A -> bool) l : Forall (fun x => p x = true) l -> filter p l = l.
Proof. induction 1; cbn; auto. rewrite H. congruence. Qed.
Lemma filter_short {A} (p : A -> bool) l : length (filter p l) <= length l.
Proof. induction l; cbn; auto. destruct (p a); cbn; lia. Qed.
Lemma filter_length_id {A} (p : A -> bool) l : length (filter p l) = length l -> filter p l = l /\ Forall (fun x => p x = true) l.
Proof.
  induction l as [|a l IH]; cbn; auto. destruct (p a) eqn:E; cbn; intros H.
  - destruct IH as [X Y]; [lia|]. split; [congruence|constructor; auto].
  - pose proof (filter_short p l). lia.
Qed.
Lemma map_id_inv {A} (f : A -> A) l : map f l = l -> Forall (fun x => f x = x) l.
Proof. induction l; cbn; auto. intros [= E F]. constructor; auto. Qed.
Lemma full_pruned t : forall v, full t v <-> pruned t v = v.
Proof.
  induction t as [s n| | | | |t IH|t IH|w t IH]; cbn [full pruned]; intros v; try (split; auto; fail).
  - split.
    + intros F. rewrite filter_id; [|eapply Forall_impl; [|exact F]; cbn; tauto].
      induction F as [|x l [P F] _ IHl]; cbn; auto. rewrite IHl, (proj1 (IH x) F). auto.
    + intros E. pose proof (f_equal (@length _) E) as L. rewrite map_length in L. apply filter_length_id in L. destruct L as [L P].
      rewrite L in E. apply map_id_inv in E. rewrite Forall_forall in *. intros x I. split; auto. apply IH; auto.
  - split.
    + intros F. rewrite filter_id; [|eapply Forall_impl; [|exact F]; cbn; tauto].
      induction F as [|[k x] l [P F] _ IHl]; cbn; auto. cbn in F. rewrite IHl, (proj1 (IH x) F). auto.
    + intros E. pose proof (f_equal (@length _) E) as L. rewrite map_length in L. apply filter_length_id in L. destruct L as [L P].
      rewrite L in E. apply map_id_inv in E. rewrite Forall_forall in *. intros x I. split; auto. apply IH.
      specialize (E x I). destruct x; cbn in *; congruence.
  - destruct v as [x|]; cbn [option_map].
    + split; [intros H; rewrite (proj1 (IH x)); auto|]. intros [= E] y [= <-]. apply IH. auto.
    + split; auto. intros _ x; discriminate.
Qed.

Lemma forall2_length {A B} (R : A -> B -> Prop) l r : Forall2 R l r -> length l = length r.
Proof. induction 1; cbn; congruence. Qed.
Lemma nth_error_ext {A} (l : list A) : forall l', (forall i, nth_error l i = nth_error l' i) -> l = l'.
Proof.
  induction l as [|a l IH]; intros [|b l'] H; auto; try (specialize (H 0); discriminate).
  f_equal; [specialize (H 0); cbn in H; congruence|]. apply IH. intros i. apply (H (S i)).
Qed.
(* ---- reading by position and by key ---- *)
Lemma entries_size c : length (entries c) = size c.
Proof. destruct c; auto. Qed.
Lemma entry_at_nth c i : e_val (entry_at c i) = match nth_error (entries c) i with Some e => snd e | None => None end.
Proof.
  destruct c as [c|]; cbn [entry_at entries]; [|destruct i; auto]. unfold find_index. destruct (nth_error (centries c) i) as [[k v]|]; auto.
Qed.
Lemma unreadable t c : readable (entry_value t) (entries c) = None <->
  exists i, i < size c /\ entry_value t (e_val (entry_at c i)) = Val None.
Proof.
  rewrite readable_none by apply value_total. split.
  - intros (k & s & I & E). apply In_nth_error in I. destruct I as [i I]. exists i. rewrite <- entries_size. split.
    + apply nth_error_Some. congruence.
    + rewrite entry_at_nth, I. auto.
  - intros (i & L & E). rewrite <- entries_size in L. rewrite entry_at_nth in E. destruct (nth_error (entries c) i) as [[k s]|] eqn:N.
    + exists k, s. split; auto. eapply nth_error_In; eauto.
    + apply nth_error_None in N. lia.
Qed.
Lemma forall2_nth {A B} (R : A -> B -> Prop) l r : Forall2 R l r <->
  length r = length l /\ forall i x, nth_error l i = Some x -> exists y, nth_error r i = Some y /\ R x y.
Proof.
  split.
  - intros F. split; [symmetry; eapply forall2_length; eauto|]. induction F as [|a b l r H F IH]; intros i x; [destruct i; discriminate|].
    destruct i; cbn; [intros [= <-]; eauto|apply IH].
  - revert r. induction l as [|a l IH]; intros [|b r] [L H]; try discriminate; constructor.
    + destruct (H 0 a eq_refl) as (y & [= <-] & R0). auto.
    + apply IH. split; [cbn in L; lia|]. intros i x E. apply (H (S i) x E).
Qed.
Lemma vector_spec t c (l : list (den t)) : load (TVec t) c = Val l <->
  length l = size c /\
  forall i, i < size c -> exists x, entry_value t (e_val (entry_at c i)) = Val (Some x) /\ nth_error l i = Some x.
Proof.
  rewrite load_vec. rewrite <- entries_size. split.
  - destruct (readable _ _) as [r|] eqn:R; [|discriminate]. intros [= <-]. apply readable_forall2, forall2_nth in R. destruct R as [L R].
    rewrite map_length. split; auto. intros i I. rewrite entry_at_nth. destruct (nth_error (entries c) i) as [e|] eqn:N; [|apply nth_error_None in N; lia].
    destruct (R i e N) as (y & Y & _ & V). exists (snd y). split; auto. apply map_nth_error. auto.
  - intros [L H]. destruct (readable _ _) as [r|] eqn:R.
    + f_equal. apply readable_forall2, forall2_nth in R. destruct R as [LR R].
      apply nth_error_ext. intros i. destruct (nth_error (entries c) i) as [e|] eqn:N.
      * destruct (R i e N) as (y & Y & _ & V). rewrite (map_nth_error snd i r Y).
        destruct (H i) as (x & E & X); [apply nth_error_Some; congruence|]. rewrite entry_at_nth, N in E.
        assert (Q : Val (Some x) = Val (Some (snd y))) by (rewrite <- E; exact V). injection Q as ->. symmetry. exact X.
      * apply nth_error_None in N. rewrite (proj2 (nth_error_None (map snd r) i)) by (rewrite map_length; lia).
        rewrite (proj2 (nth_error_None l i)) by lia. auto.
    + apply unreadable in R. destruct R as (i & I & E). rewrite <- entries_size in I. destruct (H i I) as (x & E' & _). congruence.
Qed.
Lemma first_of_in {A} n (l : list (str * A)) : In n (map fst l) <-> exists x, first_of n l = Some x.
Proof.
  induction l as [|[k v] l IH]; cbn [map fst In first_of].
  - split; [intros []|intros (x & X); discriminate].
  - destruct (list_eq_dec ascii_dec k n) as [->|N]; [split; eauto|]. rewrite <- IH. tauto.
Qed.
Lemma map_spec t c r : assoc_b c = true -> readable (entry_value t) (entries c) = Some r ->
  let m := fold_left (fun l e => map_emplace (fst e) (snd e) l) r [] in
  StronglySorted slt (map fst m) /\ (forall n, In n (map fst m) <-> In n (keys c)) /\
  forall n x, first_of n m = Some x -> entry_value t (bassoc c n) = Val (Some x).
Proof.
  intros A R m. destruct (emplace_all r []) as [S E]; [constructor|]. fold m in S, E. cbn [first_of] in E.
  apply readable_forall2 in R.
  destruct c as [c|]; [|discriminate]. cbn [entries assoc_b] in *.
  assert (K : keys (Some c) = map fst (centries c)).
  { rewrite keys_spec. rewrite A. auto. }
  split; auto. split.
  - intros n. rewrite first_of_in, E, <- first_of_in, K.
    assert (X : map fst r = map fst (centries c)); [|rewrite X; tauto].
    clear -R. induction R as [|e x l r [H _] _ IH]; cbn; congruence.
  - intros n x F. rewrite E in F. destruct c as [k es]. rewrite bassoc_assoc by auto. cbn [centries] in R. clear -R F.
    induction R as [|[k1 e] [k2 y] l r [H V] _ IH]; cbn [first_of fst snd] in *; [discriminate|]. subst k2.
    rewrite assoc_cons. unfold seqb. destruct (list_eq_dec ascii_dec k1 n); auto. congruence.
Qed.
Lemma multi_length {A} (r : list (str * A)) : forall l,
  length (fold_left (fun l e => multimap_emplace (fst e) (snd e) l) r l) = length l + length r.
Proof.
  assert (X : forall k (v : A) l, length (multimap_emplace k v l) = S (length l)).
  { intros k v l. induction l as [|[a b] l IH]; cbn [multimap_emplace length]; auto. destruct (scmp k a); cbn [length]; auto. }
  induction r as [|e r IH]; intros l; cbn [fold_left length]; auto. rewrite IH, X. lia.
Qed.
Lemma multimap_spec t c r : readable (entry_value t) (entries c) = Some r ->
  let m := fold_left (fun l e => multimap_emplace (fst e) (snd e) l) r [] in
  StronglySorted sle (map fst m) /\ length m = size c /\
  forall n, Forall2 (fun s x => entry_value t s = Val (Some x)) (all_of n (entries c)) (all_of n m).
Proof.
  intros R m. destruct (multi_all r []) as [S E]; [constructor|]. fold m in S, E. apply readable_forall2 in R.
  split; auto. split.
  - unfold m. rewrite multi_length, <- entries_size. cbn. symmetry. eapply forall2_length; eauto.
  - intros n. rewrite E. cbn [app]. clear -R. induction R as [|[k1 e] [k2 y] l r [H V] _ IH]; [constructor|].
    cbn [fst snd] in *. subst k2. change (all_of n []) with (@nil (den t)). cbn [app].
    rewrite !all_of_cons. cbn [fst snd]. destruct (list_eq_dec ascii_dec k1 n); cbn [app]; auto. 
Qed.
End Reading.
