(* Lemmas for C109. *)
From Coq Require Import Ascii List Bool Arith Lia.
From Verif Require Import ConfigModel ConfigSpec ConfigProofs ConfigCopy ConfigPath ConfigBuild ConfigWf DconfModel DconfSpec.
Import ListNotations.

(* ---- the debug functions against the release ones ---- *)
Definition agrees {A} (debug : bool) (x : dres A) (y : res A) : Prop := x = Run y \/ (debug = true /\ x = Stop).
Lemma agrees_run {A} debug (y : res A) : agrees debug (Run y) y.
Proof. left; reflexivity. Qed.
Lemma agrees_bind {A B} debug (x : dres A) y (f : A -> dres B) g :
  agrees debug x y -> (forall a, agrees debug (f a) (g a)) -> agrees debug (dbind x f) (bind y g).
Proof.
  intros [-> | [D ->]] H; [|right; auto]. destruct y; cbn; [apply H|left|left|left]; reflexivity.
Qed.
Lemma agrees_fold {A B} debug (f : A -> B -> dres A) g l :
  (forall a x, In x l -> agrees debug (f a x) (g a x)) -> forall a, agrees debug (dfold f l a) (foldM g l a).
Proof.
  induction l as [|x t IH]; intros H a; [left; reflexivity|]. cbn [dfold foldM].
  apply agrees_bind; [apply H; left; reflexivity|]. apply IH. intros; apply H; right; auto.
Qed.
Lemma agrees_requires {A} debug ok (x : dres A) y : agrees debug x y -> agrees debug (requires debug ok x) y.
Proof. intros H. unfold requires. destruct debug, ok; cbn; auto. right; auto. Qed.

Lemma copy_agrees debug f : forall deep b, agrees debug (dcopy_impl debug f deep b) (copy_impl f deep b).
Proof.
  induction f as [|f IH]; intros deep b; [left; reflexivity|]. destruct b as [c|]; [|left; reflexivity].
  cbn [dcopy_impl copy_impl]. apply agrees_bind; [|intros; apply agrees_run]. apply agrees_fold. intros a e _.
  apply agrees_bind; [|intros; apply agrees_run]. destruct (e_val e) as [v|]; [|apply agrees_run].
  destruct (deep && is_conf v); [|apply agrees_run]. apply agrees_bind; [apply IH|]. intros c'.
  apply agrees_requires, agrees_run.
Qed.
Lemma merge_agrees debug f : forall l r, agrees debug (dmerge_impl debug f l r) (merge_impl f l r).
Proof.
  induction f as [|f IH]; intros l r; [left; reflexivity|]. cbn [dmerge_impl merge_impl].
  destruct (_ && _); [|apply agrees_run].
  assert (Hs : forall b a k, agrees debug
    (if is_common (set_inter (ssort (keys l)) (ssort (keys r))) k then
        match e_val (at_key l k), e_val (at_key r k) with
          | Some lv, Some rv =>
              match lv, rv with
              | VConf lc, VConf rc =>
                  if assoc_b lc && assoc_b rc
                  then dbind (dmerge_impl debug f lc rc)
                             (fun m => wrap_config debug (Some m) (fun w => Run (put a k (Some w))))
                  else Run (put a k (Some (copy_value lv)))
              | _, _ => Run (put a k (Some (copy_value lv)))
              end
          | _, _ => Run Throw
          end
     else match e_val (at_key b k) with
               | Some v => Run (put a k (Some (copy_value v)))
               | None => Run (Ok a)
               end)
    (if is_common (set_inter (ssort (keys l)) (ssort (keys r))) k then
       match e_val (at_key l k), e_val (at_key r k) with
          | Some lv, Some rv =>
              match lv, rv with
              | VConf lc, VConf rc =>
                  if assoc_b lc && assoc_b rc
                  then bind (merge_impl f lc rc) (fun m => put a k (Some (VConf (Some m))))
                  else put a k (Some (copy_value lv))
              | _, _ => put a k (Some (copy_value lv))
              end
          | _, _ => Throw
          end
     else match e_val (at_key b k) with
               | Some v => put a k (Some (copy_value v))
               | None => Ok a
               end)).
  { intros b a k. destruct (is_common _ k).
    - destruct (e_val (at_key l k)) as [lv|]; [|apply agrees_run]. destruct (e_val (at_key r k)) as [rv|]; [|apply agrees_run].
      destruct lv as [| | | |lc]; try apply agrees_run. destruct rv as [| | | |rc]; try apply agrees_run.
      destruct (assoc_b lc && assoc_b rc); [|apply agrees_run]. apply agrees_bind; [apply IH|]. intros m. apply agrees_requires, agrees_run.
    - destruct (e_val (at_key b k)); apply agrees_run. }
  apply agrees_bind; [apply agrees_fold; intros a k _; apply Hs|].
  intros a. apply agrees_fold. intros a' k _; apply Hs.
Qed.
Lemma with_agrees debug t : forall b v, agrees debug (dwith_path_impl debug t b v) (with_path_impl t b v).
Proof.
  induction t as [|n rest IH]; intros b v; cbn [dwith_path_impl with_path_impl]; apply agrees_requires;
    (match goal with |- agrees _ (if ?c then _ else _) _ => destruct c; [|apply agrees_run] end);
    (apply agrees_bind;
     [apply agrees_fold; intros [[acc w] rp] e _; destruct (e_val e) as [ev|]; [|apply agrees_run];
      destruct (seqb (e_key e) _); [|apply (agrees_bind debug (Run _)); [apply agrees_run|intros; apply agrees_run]]
     |intros [[acc w] rp]; destruct rp; [apply agrees_run|]]).
  - apply (agrees_bind debug (Run _)); [apply agrees_run|intros; apply agrees_run].
  - apply (agrees_bind debug (Run _)); [apply agrees_run|intros; apply agrees_run].
  - destruct rest as [|r0 rest0]; [apply (agrees_bind debug (Run _)); [apply agrees_run|intros; apply agrees_run]|].
    apply agrees_bind; [apply IH|]. intros cv. apply agrees_requires. apply (agrees_bind debug (Run _)); [apply agrees_run|intros; apply agrees_run].
  - destruct rest as [|r0 rest0]; [apply (agrees_bind debug (Run _)); [apply agrees_run|intros; apply agrees_run]|].
    apply agrees_bind; [apply IH|]. intros cv. apply agrees_requires. apply (agrees_bind debug (Run _)); [apply agrees_run|intros; apply agrees_run].
Qed.
Lemma only_agrees debug t : forall b, agrees debug (donly_path_impl debug t b) (only_path_impl t b).
Proof.
  induction t as [|n rest IH]; intros b; cbn [donly_path_impl only_path_impl]; apply agrees_requires;
    (destruct b as [c|]; [|apply agrees_run]); (destruct (is_assoc (ckind c)); [|apply agrees_run]);
    (match goal with |- agrees _ (match ?F with _ => _ end) _ => destruct F as [e|]; [|apply agrees_run] end).
  - apply (agrees_bind debug (Run _)); [apply agrees_run|intros; apply agrees_run].
  - destruct rest as [|r0 rest0]; [apply (agrees_bind debug (Run _)); [apply agrees_run|intros; apply agrees_run]|].
    apply agrees_bind; [apply IH|]. intros [ch|]; [|apply agrees_run]. apply agrees_requires.
    apply (agrees_bind debug (Run _)); [apply agrees_run|intros; apply agrees_run].
Qed.
Lemma without_agrees debug t : forall b, agrees debug (dwithout_path_impl debug t b) (without_path_impl t b).
Proof.
  induction t as [|n rest IH]; intros b; cbn [dwithout_path_impl without_path_impl]; apply agrees_requires;
    (destruct b as [c|]; [|apply agrees_run]); (destruct (is_assoc (ckind c)); [|apply agrees_run]);
    (apply agrees_bind; [|intros; apply agrees_run]); apply agrees_fold; intros a e _;
    (destruct (e_val e) as [ev|]; [|apply agrees_run]); (destruct (seqb (e_key e) _); [|apply agrees_run]).
  - apply agrees_run.
  - destruct rest as [|r0 rest0]; [apply agrees_run|]. apply agrees_bind; [apply IH|]. intros ch. apply agrees_requires, agrees_run.
Qed.
Lemma run_agrees debug o b : agrees debug (drun debug o b) (release o b).
Proof.
  destruct o as [| |p v|p|p|w ns|m [|]]; cbn [drun release].
  - apply copy_agrees.
  - apply copy_agrees.
  - unfold to_null, some_of, with_value. apply agrees_bind; [|intros; apply agrees_run].
    apply agrees_bind; [apply with_agrees|]. intros; apply agrees_run.
  - apply without_agrees.
  - apply only_agrees.
  - destruct w; apply agrees_run.
  - apply agrees_bind; [apply merge_agrees|intros; apply agrees_run].
  - apply agrees_bind; [apply merge_agrees|intros; apply agrees_run].
Qed.

(* ---- what never stops ---- *)
Lemma bind_runs {A B} (x : dres A) (f : A -> dres B) : x <> Stop -> (forall a, f a <> Stop) -> dbind x f <> Stop.
Proof. intros Hx Hf. destruct x as [[]|]; cbn; auto; discriminate. Qed.
Lemma fold_runs {A B} (f : A -> B -> dres A) l : (forall a x, In x l -> f a x <> Stop) -> forall a, dfold f l a <> Stop.
Proof.
  induction l as [|x t IH]; intros H a; [discriminate|]. cbn. apply bind_runs; [apply H; left; reflexivity|].
  apply IH. intros; apply H; right; auto.
Qed.
Ltac runs := repeat first
  [ discriminate
  | apply bind_runs; [|intros]
  | apply fold_runs; intros ].
Lemma merge_runs debug f : forall l r, dmerge_impl debug f l r <> Stop.
Proof.
  induction f as [|f IH]; intros l r; [discriminate|]. cbn [dmerge_impl].
  destruct (_ && _); [|discriminate].
  apply bind_runs; [|intros a0]; apply fold_runs; intros a k _; (destruct (is_common _ k);
    [destruct (e_val (at_key l k)) as [[| | | |lc]|]; try discriminate; destruct (e_val (at_key r k)) as [[| | | |rc]|]; try discriminate;
     destruct (assoc_b lc && assoc_b rc); [|discriminate]; apply bind_runs; [apply IH|intros m];
     unfold wrap_config, requires; rewrite andb_false_r; discriminate
    |match goal with |- context [e_val (at_key ?b k)] => destruct (e_val (at_key b k)); discriminate end]).
Qed.
Lemma with_runs debug t : forall b v, t <> [] -> dwith_path_impl debug t b v <> Stop.
Proof.
  induction t as [|n rest IH]; intros b v Ht; [congruence|]. cbn [dwith_path_impl]. unfold next, requires. cbn [tok_has_next negb].
  rewrite andb_false_r.
  match goal with |- (if ?c then _ else _) <> _ => destruct c; [|discriminate] end.
  apply bind_runs.
  - apply fold_runs. intros [[acc w] rp] e _. destruct (e_val e) as [ev|]; [|discriminate].
    destruct (seqb (e_key e) n); [|runs]. destruct rest as [|r0 rest0]; [runs|].
    apply bind_runs; [apply IH; discriminate|intros cv]. unfold wrap_config, requires. rewrite andb_false_r. runs.
  - intros [[acc w] rp]. destruct rp; [discriminate|]. destruct rest as [|r0 rest0]; [runs|].
    apply bind_runs; [apply IH; discriminate|intros cv]. unfold wrap_config, requires. rewrite andb_false_r. runs.
Qed.
Lemma only_runs debug t : forall b, t <> [] -> donly_path_impl debug t b <> Stop.
Proof.
  induction t as [|n rest IH]; intros b Ht; [congruence|]. cbn [donly_path_impl]. unfold next, requires. cbn [tok_has_next negb].
  rewrite andb_false_r. destruct b as [c|]; [|discriminate]. destruct (is_assoc (ckind c)); [|discriminate].
  match goal with |- (match ?F with _ => _ end) <> _ => destruct F as [e|]; [|discriminate] end.
  destruct rest as [|r0 rest0]; [runs|]. apply bind_runs; [apply IH; discriminate|]. intros [ch|]; [|discriminate].
  unfold wrap_config, requires. rewrite andb_false_r. runs.
Qed.

(* ---- clone ---- *)
Definition hole (s : slot) : Prop :=
  match s with Some (VConf None) => True | Some (VConf (Some c)) => holed c | _ => False end.
Lemma holed_iff k es : holed (Conf k es) <-> exists n s, In (n, s) es /\ hole s.
Proof.
  split.
  - intros H. inversion H; subst; [exists n, (Some (VConf None)); split; [assumption|exact I]|].
    exists n, (Some (VConf (Some c))). auto.
  - intros (n & s & Hi & Hs). destruct s as [[| | | |[c|]]|]; try contradiction.
    + eapply holed_below; eauto.
    + eapply holed_here; eauto.
Qed.
Lemma fold_stops {A B} (J : A -> Prop) (P : B -> Prop) (f : A -> B -> dres A) l :
  (forall a x, J a -> In x l -> (P x /\ f a x = Stop) \/ (~ P x /\ exists a', f a x = Run (Ok a') /\ J a')) ->
  forall a, J a -> (dfold f l a = Stop /\ exists x, In x l /\ P x) \/
                   (~ (exists x, In x l /\ P x) /\ exists a', dfold f l a = Run (Ok a') /\ J a').
Proof.
  induction l as [|x t IH]; intros H a Ha.
  - right. split; [intros (y & [] & _)|]. exists a. split; [reflexivity|exact Ha].
  - cbn [dfold]. destruct (H a x Ha (or_introl eq_refl)) as [[Hp E] | [Hp (a' & E & Ha')]]; rewrite E; cbn [dbind].
    + left. split; [reflexivity|]. exists x. split; [left; reflexivity|exact Hp].
    + destruct (IH (fun a0 y J0 Hi => H a0 y J0 (or_intror Hi)) a' Ha') as [[E' (y & Hi & Hy)] | [Hn E']].
      * left. split; [exact E'|]. exists y. split; [right; exact Hi|exact Hy].
      * right. split; [|exact E']. intros (y & [<- | Hi] & Hy); [exact (Hp Hy)|]. apply Hn. exists y. auto.
Qed.
Lemma put_ok c k v : is_assoc (ckind c) = true -> exists c', put c k v = Ok c' /\ ckind c' = ckind c.
Proof. destruct c as [[] es]; cbn; try discriminate; intros _; eexists; split; reflexivity. Qed.
Lemma add_ok c v : is_assoc (ckind c) = false -> exists c', add c v = Ok c' /\ ckind c' = ckind c.
Proof. destruct c as [[] es]; cbn; try discriminate; intros _; eexists; split; reflexivity. Qed.
Lemma iterate_in c n s : In (n, s) (centries c) <-> exists e, In e (iterate (Some c)) /\ e_key e = n /\ e_val e = s.
Proof.
  rewrite <- iterate_kv. rewrite in_map_iff. split.
  - intros (e & E & Hi). exists e. injection E as <- <-. auto.
  - intros (e & Hi & <- & <-). exists e. auto.
Qed.
Lemma copy_stops f : forall b, f > nodes_b b ->
  (dcopy_impl true f true b = Stop /\ exists c, b = Some c /\ holed c) \/
  (~ (exists c, b = Some c /\ holed c) /\ exists b', dcopy_impl true f true b = Run (Ok b') /\ (b' = None <-> b = None)).
Proof.
  induction f as [|f IH]; intros b Hf; [lia|]. destruct b as [c|].
  2:{ right. split; [intros (c & E & _); discriminate|]. exists None. split; [reflexivity|tauto]. }
  cbn [dcopy_impl].
  match goal with |- context [dfold ?F ?L0 ?A0] => destruct (fold_stops (fun x => ckind x = ckind c) (fun e => hole (e_val e)) F L0) with (a := A0) as [[E (e & Hi & He)] | [Hn (a' & E & _)]] end.
  - intros a e Ha Hi. destruct (e_val e) as [v|] eqn:Ev; [|right; split; [intros []|]; cbn [dbind]].
    2:{ destruct (is_assoc (ckind c)) eqn:Ek; [destruct (put_ok a (e_key e) None) as (a' & -> & K)|destruct (add_ok a None) as (a' & -> & K)];
        try congruence; exists a'; split; congruence. }
    assert (Hfin : forall w, exists a', Run (if is_assoc (ckind c) then put a (e_key e) (Some w) else add a (Some w)) = Run (Ok a') /\ ckind a' = ckind c).
    { intros w. destruct (is_assoc (ckind c)) eqn:Ek; [destruct (put_ok a (e_key e) (Some w)) as (a' & -> & K)|destruct (add_ok a (Some w)) as (a' & -> & K)];
        try congruence; exists a'; split; congruence. }
    destruct v as [| | | |sc]; try (right; split; [intros []|]; cbn; apply Hfin).
    cbn [is_conf andb object_of as_conf].
    assert (Hless : f > nodes_b sc).
    { destruct c as [k es]. destruct sc as [c0|]; [|cbn [nodes_b nodes] in *; lia].
      assert (Hin : In (e_key e, Some (VConf (Some c0))) es).
      { change es with (centries (Conf k es)). apply iterate_in. exists e. auto. }
      pose proof (nodes_conf k es _ _ Hin). cbn [nodes_b] in *. lia. }
    destruct (IH sc Hless) as [[E (c0 & -> & Hh)] | [Hn (b' & E & Hb)]].
    + left. rewrite E. split; [exact Hh|reflexivity].
    + rewrite E. cbn [dbind]. unfold wrap_config, requires. destruct b' as [c'|]; cbn [andb negb].
      * right. split; [|cbn [dbind]; apply Hfin]. destruct sc as [c0|]; [|exfalso; destruct Hb as [_ Hb]; specialize (Hb eq_refl); discriminate].
        cbn. intros Hh. apply Hn. exists c0. auto.
      * left. split; [|reflexivity]. destruct Hb as [Hb _]. rewrite (Hb eq_refl). exact I.
  - rewrite empty_copy_spec. reflexivity.
  - left. rewrite E. split; [reflexivity|]. exists c. split; [reflexivity|]. destruct c as [k es]. apply holed_iff.
    exists (e_key e), (e_val e). split; [|exact He]. change es with (centries (Conf k es)). apply iterate_in. exists e. auto.
  - right. rewrite E. split.
    + intros (c0 & [= <-] & Hh). destruct c as [k es]. apply holed_iff in Hh as (n & s & Hi & Hs). apply Hn.
      change es with (centries (Conf k es)) in Hi. apply iterate_in in Hi as (e & Hi & _ & <-). exists e. auto.
    + eexists. split; [reflexivity|]. split; discriminate.
Qed.
Lemma clone_stops b : drun true RClone b = Stop <-> exists c, b = Some c /\ holed c.
Proof.
  cbn [drun]. destruct (copy_stops (S (nodes_b b)) b) as [[E H] | [H (b' & E & _)]]; [lia| |]; rewrite E; split; auto; try discriminate.
  intros H'. destruct (H H').
Qed.
Lemma shallow_runs debug b : drun debug RShallow b <> Stop.
Proof.
  cbn [drun]. destruct b as [c|]; [|discriminate]. cbn [dcopy_impl]. apply bind_runs; [|discriminate]. apply fold_runs. intros a e _.
  apply bind_runs; [|discriminate]. destruct (e_val e); discriminate.
Qed.

(* ---- without_path ---- *)
Lemma without_empty b : dwithout_path_impl true [] b = Stop.
Proof. reflexivity. Qed.
Lemma fold_stop_in {A B} (f : A -> B -> dres A) l : forall a, dfold f l a = Stop -> exists a' x, In x l /\ f a' x = Stop.
Proof.
  induction l as [|x t IH]; intros a H; [discriminate|]. cbn in H. destruct (f a x) as [[y| | |]|] eqn:E; cbn in H; try discriminate.
  - destruct (IH y H) as (a' & z & Hi & Hz). exists a', z. split; [right; exact Hi|exact Hz].
  - exists a, x. split; [left; reflexivity|exact E].
Qed.
Lemma bind_stop {A B} (x : dres A) (f : A -> dres B) : dbind x f = Stop -> x = Stop \/ exists a, x = Run (Ok a) /\ f a = Stop.
Proof. destruct x as [[a| | |]|]; cbn; try discriminate; [right; exists a; auto|left; reflexivity]. Qed.
Lemma without_none_null t : forall debug b, t <> [] -> dwithout_path_impl debug t b = Run (Ok None) -> b = None.
Proof.
  intros debug b Ht H. destruct t as [|n rest]; [congruence|]. destruct b as [c|]; [|reflexivity]. exfalso.
  cbn [dwithout_path_impl] in H. unfold next, requires in H. cbn [tok_has_next negb] in H. rewrite andb_false_r in H.
  destruct (is_assoc (ckind c)); [|discriminate].
  match type of H with dbind ?x _ = _ => destruct x as [[y| | |]|]; discriminate end.
Qed.
Lemma leaf_object v : object_of (Some v) = None <-> leaf v.
Proof.
  unfold leaf. destruct v as [| | | |[c|]]; cbn; split; intros H; try reflexivity; try (intros c0; discriminate); try discriminate.
  destruct (H c eq_refl).
Qed.
Lemma without_cut t : forall b, t <> [] -> dwithout_path_impl true t b = Stop -> exists c, b = Some c /\ cut_short t c.
Proof.
  induction t as [|n rest IH]; intros b Ht H; [congruence|].
  cbn [dwithout_path_impl] in H. unfold next, requires in H. cbn [tok_has_next negb] in H. rewrite andb_false_r in H.
  destruct b as [c|]; [|discriminate]. destruct (is_assoc (ckind c)) eqn:Ek; [|discriminate].
  apply bind_stop in H as [H | (a & _ & H)]; [|discriminate]. apply fold_stop_in in H as (acc & e & Hi & H).
  destruct (e_val e) as [ev|] eqn:Ev; [|discriminate]. destruct (seqb (e_key e) n) eqn:En; [|discriminate].
  apply seqb_spec in En. destruct rest as [|r0 rest0]; [discriminate|].
  assert (Hin : In (n, Some ev) (centries c)) by (apply iterate_in; exists e; auto).
  assert (Hk : ckind c <> KArray) by (intros E; rewrite E in Ek; discriminate).
  exists c. split; [reflexivity|]. destruct c as [k es]. cbn [ckind centries] in *.
  apply bind_stop in H as [H | (a & H & H2)].
  - apply IH in H as (c0 & E & Hc); [|discriminate]. destruct ev as [| | | |[c1|]]; try discriminate. cbn in E. injection E as ->.
    eapply cut_below; eauto.
  - unfold wrap_config, requires in H2. destruct a as [a|]; [discriminate|]. apply without_none_null in H; [|discriminate].
    eapply cut_here; [exact Hk|exact Hin|]. apply leaf_object. exact H.
Qed.
Lemma fold_stop_once {A B} (f : A -> B -> dres A) (J : A -> Prop) l1 x l2 :
  (forall a y, J a -> In y l1 -> exists a', f a y = Run (Ok a') /\ J a') -> (forall a, J a -> f a x = Stop) ->
  forall a, J a -> dfold f (l1 ++ x :: l2) a = Stop.
Proof.
  induction l1 as [|y t IH]; intros H1 Hx a Ha; cbn.
  - rewrite Hx by exact Ha. reflexivity.
  - destruct (H1 a y Ha (or_introl eq_refl)) as (a' & -> & Ha'). cbn. apply IH; auto. intros a0 z J0 Hi. apply H1; [exact J0|right; exact Hi].
Qed.
Lemma without_step n r0 rest0 b (c : conf) (v : value) : b = Some c -> on single b -> is_assoc (ckind c) = true -> bassoc b n = Some v ->
  (dwithout_path_impl true (r0 :: rest0) (object_of (Some v)) = Stop \/ leaf v) ->
  dwithout_path_impl true (n :: r0 :: rest0) b = Stop.
Proof.
  intros -> Hs Ek Hv Hc. cbn [dwithout_path_impl]. unfold next at 1, requires at 1. cbn [tok_has_next negb andb]. rewrite Ek.
  assert (Hsub : In (n, Some v) (centries c)) by (apply bassoc_in; exact Hv).
  apply iterate_in in Hsub as (e & Hi & Hkey & Hval). apply in_split in Hi as (l1 & l2 & Hl). rewrite Hl.
  assert (Hnd : NoDup (map e_key (iterate (Some c)))).
  { replace (map e_key (iterate (Some c))) with (map fst (centries c)).
    - destruct c as [k es]. inversion Hs; subst. cbn. apply H1. intros E; cbn in Ek; rewrite E in Ek; discriminate.
    - rewrite <- iterate_kv, map_map. reflexivity. }
  rewrite Hl, map_app in Hnd. cbn [map] in Hnd. apply NoDup_remove_2 in Hnd.
  match goal with |- dbind (dfold ?F _ ?A0) _ = _ => rewrite (fold_stop_once F (fun x => ckind x = ckind c) l1 e l2) with (a := A0) end; [reflexivity| | |].
  - intros a y Ha Hy. destruct (e_val y) as [w|]; [|exists a; auto]. destruct (seqb (e_key y) n) eqn:En.
    + exfalso. apply Hnd. apply seqb_spec in En. rewrite Hkey, <- En. apply in_or_app. left. apply in_map. exact Hy.
    + destruct (put_ok a (e_key y) (Some (copy_value w))) as (a' & -> & K); [congruence|]. exists a'. split; congruence.
  - intros a Ha. rewrite Hval, Hkey, seqb_refl. destruct Hc as [Hc | Hc].
    + change (dbind (dwithout_path_impl true (r0 :: rest0) (object_of (Some v))) (fun child => wrap_config true child (fun w => Run (put a n (Some w)))) = Stop).
      rewrite Hc. reflexivity.
    + apply leaf_object in Hc. rewrite Hc. reflexivity.
  - rewrite empty_copy_spec. reflexivity.
Qed.
Definition cut_at (b : option conf) (t : list str) : Prop :=
  exists q v, q <> [] /\ proper_prefix q t /\ cget b q = Some v /\ leaf v.
Lemma without_stops t : forall b, t <> [] -> on single b -> (dwithout_path_impl true t b = Stop <-> cut_at b t).
Proof.
  induction t as [|n rest IH]; intros b Ht Hs; [congruence|]. split.
  - intros H. cbn [dwithout_path_impl] in H. unfold next, requires in H. cbn [tok_has_next negb] in H. rewrite andb_false_r in H.
    destruct b as [c|]; [|discriminate]. destruct (is_assoc (ckind c)) eqn:Ek; [|discriminate].
    apply bind_stop in H as [H | (a & _ & H)]; [|discriminate]. apply fold_stop_in in H as (acc & e & Hi & H).
    destruct (e_val e) as [ev|] eqn:Ev; [|discriminate]. destruct (seqb (e_key e) n) eqn:En; [|discriminate].
    apply seqb_spec in En. destruct rest as [|r0 rest0]; [discriminate|].
    assert (Hin : In (n, Some ev) (centries c)) by (apply iterate_in; exists e; auto).
    assert (Hb : bassoc (Some c) n = Some ev).
    { destruct c as [k es]. rewrite bassoc_assoc by exact Ek. apply assoc_nodup; [|exact Hin]. inversion Hs; subst. apply H2.
      intros E; cbn in Ek; rewrite E in Ek; discriminate. }
    apply bind_stop in H as [H | (a & H & H2)].
    + apply IH in H; [|discriminate|].
      2:{ apply (on_child single (Some c) n (Some ev)); [exact single_sub|exact Hs|exact Hb]. }
      destruct H as (q & w & Hq & (m & r & Hp) & Hg & Hl). exists (n :: q), w. split; [discriminate|]. split; [exists m, r; cbn; rewrite Hp; reflexivity|].
      split; [|exact Hl]. rewrite cget_cons, Hb. rewrite vget_ne by exact Hq. exact Hg.
    + unfold wrap_config, requires in H2. destruct a as [a|]; [discriminate|]. apply without_none_null in H; [|discriminate].
      exists [n], ev. split; [discriminate|]. split; [exists r0, rest0; reflexivity|]. split; [rewrite cget_cons, Hb; reflexivity|].
      apply leaf_object. exact H.
  - intros (q & v & Hq & Hp & Hg & Hl). apply proper_cons in Hp as [-> | (q' & -> & Hp)]; [congruence|].
    rewrite cget_cons in Hg. destruct (bassoc b n) as [w|] eqn:Hb; [|discriminate].
    destruct b as [c|]; [|discriminate Hb].
    assert (Ek : is_assoc (ckind c) = true) by (destruct c as [[] es]; cbn in Hb |- *; congruence).
    destruct rest as [|r0 rest0]; [destruct Hp as (m & r & E); destruct q'; discriminate|].
    apply (without_step n r0 rest0 (Some c) c w eq_refl Hs Ek Hb). destruct q' as [|q0 q1].
    + right. cbn in Hg. injection Hg as ->. exact Hl.
    + left. apply IH; [discriminate| |].
      * apply (on_child single (Some c) n (Some w)); [exact single_sub|exact Hs|exact Hb].
      * exists (q0 :: q1), v. split; [discriminate|]. split; [exact Hp|]. split; [|exact Hl]. rewrite <- vget_ne by discriminate. exact Hg.
Qed.

(* ---- no null config inside ---- *)
Inductive full : conf -> Prop :=
| full_intro k es : (forall n, ~ In (n, Some (VConf None)) es) ->
    (forall n c, In (n, Some (VConf (Some c))) es -> full c) -> full (Conf k es).
Definition slot_full (s : slot) : Prop :=
  match s with Some (VConf None) => False | Some (VConf (Some c)) => full c | _ => True end.
Lemma full_slots k es : full (Conf k es) <-> forall n s, In (n, s) es -> slot_full s.
Proof.
  split.
  - intros H n s Hi. inversion H; subst. destruct s as [[| | | |[c|]]|]; cbn; auto; [eauto|]. eapply H2; eauto.
  - intros H. constructor; [intros n Hi; exact (H _ _ Hi)|intros n c Hi; exact (H _ _ Hi)].
Qed.
Lemma full_holed c : full c <-> ~ holed c.
Proof.
  split.
  - induction c as [k es IH] using conf_ind'. intros Hf Hh. inversion Hf; subst. inversion Hh; subst; [eapply H1; eauto|]. eapply IH; eauto.
  - induction c as [k es IH] using conf_ind'. intros Hh. constructor.
    + intros n Hi. apply Hh. eapply holed_here; eauto.
    + intros n c Hi. eapply IH; eauto. intros Hc. apply Hh. eapply holed_below; eauto.
Qed.
Lemma put_full_slot c k s c' : full c -> slot_full s -> put c k s = Ok c' -> full c'.
Proof.
  intros Hw Hv H. destruct c as [kk es]. assert (Hs : forall n s, In (n, s) es -> slot_full s) by (apply (full_slots kk); exact Hw).
  destruct kk; cbn in H; try discriminate; injection H as <-; apply full_slots; intros n s0 Hi.
  - apply map_put_in in Hi as [[_ Hi]|Hi]; [subst; exact Hv|eauto].
  - apply multi_put_in in Hi as [Hi|Hi]; [injection Hi as _ Hi; subst; exact Hv|eauto].
  - apply ord_put_in in Hi as [[_ Hi]|Hi]; [subst; exact Hv|eauto].
Qed.
Lemma add_full_slot c s c' : full c -> slot_full s -> add c s = Ok c' -> full c'.
Proof.
  intros Hw Hv H. destruct c as [[] es]; try discriminate. injection H as <-. apply full_slots. intros n s0 Hi.
  apply in_app_iff in Hi as [Hi|[Hi|[]]]; [eapply full_slots; eauto|]. injection Hi as _ ->. exact Hv.
Qed.
Lemma empty_full k : full (Conf k []).
Proof. apply full_slots. intros n s []. Qed.
Lemma empty_copy_full b : full (empty_copy b).
Proof. destruct b as [[[] es]|]; apply empty_full. Qed.
Lemma entry_full b e : on full b -> In e (iterate b) -> slot_full (e_val e).
Proof.
  intros Hw Hi. destruct b as [c|]; [|destruct Hi]. apply (in_map kv) in Hi. rewrite iterate_kv in Hi.
  destruct c as [k es]. eapply full_slots; [exact Hw|exact Hi].
Qed.
Lemma object_of_full s : slot_full s -> on full (object_of s).
Proof. destruct s as [[| | | |[c|]]|]; cbn; auto. Qed.
Lemma find_key_full c n : full c -> slot_full (snd (find_key c n)).
Proof.
  intros Hw. rewrite find_key_snd. destruct (bassoc (Some c) n) as [v|] eqn:E; [|exact I]. apply bassoc_in in E. destruct c as [k es].
  eapply full_slots; [exact Hw|exact E].
Qed.
Lemma resolve_full t : forall b, on full b -> slot_full (e_val (resolve b t)).
Proof.
  induction t as [|n rest IH]; intros b Hw; [exact I|]. destruct b as [c|]; [|exact I]. cbn [resolve].
  pose proof (find_key_full c n Hw) as Hf. destruct (find_key c n) as [i v]. cbn in Hf. destruct (tok_has_next rest); [|exact Hf].
  apply IH. apply object_of_full. exact Hf.
Qed.
Lemma at_key_full b n : on full b -> slot_full (e_val (at_key b n)).
Proof. apply resolve_full. Qed.
Lemma merge_full f : forall l r m, on full l -> on full r -> merge_impl f l r = Ok m -> full m.
Proof.
  induction f as [|f IH]; intros l r m Hl Hr H; [discriminate|]. cbn [merge_impl] in H.
  match type of H with (if ?c then _ else _) = _ => destruct c; [|discriminate] end.
  set (J := if multi_b l || multi_b r then Conf KMulti [] else Conf KMap []) in *.
  assert (HJ : full J) by (unfold J; destruct (multi_b l || multi_b r); apply empty_full).
  clearbody J. apply bind_ok in H as (a1 & H1 & H2).
  assert (Hstep : forall b, (b = l \/ b = r) -> forall a k a', full a ->
    (if is_common (set_inter (ssort (keys l)) (ssort (keys r))) k then
       match e_val (at_key l k), e_val (at_key r k) with
          | Some lv, Some rv =>
              match lv, rv with
              | VConf lc, VConf rc =>
                  if assoc_b lc && assoc_b rc
                  then bind (merge_impl f lc rc) (fun m => put a k (Some (VConf (Some m))))
                  else put a k (Some (copy_value lv))
              | _, _ => put a k (Some (copy_value lv))
              end
          | _, _ => Throw
          end
     else match e_val (at_key b k) with
               | Some v => put a k (Some (copy_value v))
               | None => Ok a
               end) = Ok a' -> full a').
  { intros b Hb a k a' Ha E. pose proof (at_key_full l k Hl) as Wl. pose proof (at_key_full r k Hr) as Wr.
    assert (Wb : slot_full (e_val (at_key b k))) by (destruct Hb; subst; assumption).
    destruct (is_common _ k).
    - destruct (e_val (at_key l k)) as [lv|]; [|discriminate]. destruct (e_val (at_key r k)) as [rv|]; [|discriminate].
      assert (Hput : put a k (Some (copy_value lv)) = Ok a' -> full a') by (intros E'; eapply put_full_slot; [exact Ha|exact Wl|exact E']).
      destruct lv as [| | | |lc]; try exact (Hput E). destruct rv as [| | | |rc]; try exact (Hput E).
      destruct (assoc_b lc && assoc_b rc); [|exact (Hput E)]. apply bind_ok in E as (m' & E1 & E2).
      eapply put_full_slot; [exact Ha| |exact E2]. cbn. apply (IH lc rc m'); [destruct lc; cbn; auto|destruct rc; cbn; auto|exact E1].
    - destruct (e_val (at_key b k)) as [v|]; [|injection E as <-; exact Ha]. eapply put_full_slot; [exact Ha|exact Wb|exact E]. }
  eapply foldM_inv; [|eapply foldM_inv; [|exact HJ|exact H1]|exact H2].
  - intros a k a' Ha _ E. apply (Hstep r (or_intror eq_refl) a k a' Ha E).
  - intros a k a' Ha _ E. apply (Hstep l (or_introl eq_refl) a k a' Ha E).
Qed.
Lemma with_full t : forall b v cv, on full b -> slot_full v -> with_path_impl t b v = Ok cv -> full (fst cv) /\ slot_full (snd cv).
Proof.
  induction t as [|n rest IH]; intros b v cv Hw Hv H.
  - cbn [with_path_impl] in H. match type of H with (if ?c then _ else _) = _ => destruct c; [|discriminate] end.
    apply bind_ok in H as ([[acc v1] rp] & H1 & H2).
    assert (HI : full acc /\ slot_full v1).
    { refine (foldM_inv (fun st => full (fst (fst st)) /\ slot_full (snd (fst st))) _ _ _ _ _ _ H1); [|split; [apply empty_copy_full|exact Hv]].
      intros [[a w] rp0] e a' [Ha Hw'] Hi E. cbn [fst snd] in *. pose proof (entry_full _ _ Hw Hi) as He.
      destruct (e_val e) as [ev|]; [|injection E as <-; auto]. destruct (seqb (e_key e) []).
      - apply bind_ok in E as (x & E1 & [= <-]). cbn. split; [eapply put_full_slot; [exact Ha| |exact E1]; exact Hw'|exact I].
      - apply bind_ok in E as (x & E1 & [= <-]). cbn. split; [eapply put_full_slot; [exact Ha| |exact E1]; exact He|exact Hw']. }
    destruct rp; [injection H2 as <-; exact HI|]. apply bind_ok in H2 as (x & E1 & [= <-]). cbn. split; [|exact I].
    eapply put_full_slot; [apply HI| |exact E1]. apply HI.
  - cbn [with_path_impl] in H. match type of H with (if ?c then _ else _) = _ => destruct c; [|discriminate] end.
    apply bind_ok in H as ([[acc v1] rp] & H1 & H2).
    assert (HI : full acc /\ slot_full v1).
    { refine (foldM_inv (fun st => full (fst (fst st)) /\ slot_full (snd (fst st))) _ _ _ _ _ _ H1); [|split; [apply empty_copy_full|exact Hv]].
      intros [[a w] rp0] e a' [Ha Hw'] Hi E. cbn [fst snd] in *. pose proof (entry_full _ _ Hw Hi) as He.
      destruct (e_val e) as [ev|] eqn:Eev; [|injection E as <-; auto]. destruct (seqb (e_key e) n).
      - destruct rest as [|r0 rest0].
        + apply bind_ok in E as (x & E1 & [= <-]). cbn. split; [eapply put_full_slot; [exact Ha| |exact E1]; exact Hw'|exact I].
        + apply bind_ok in E as ([c2 v2] & E1 & E2). apply bind_ok in E2 as (x & E2 & [= <-]). cbn [fst snd] in *.
          destruct (IH (object_of (Some ev)) w _ (object_of_full _ He) Hw' E1) as [W1 W2]. split; [|exact W2].
          eapply put_full_slot; [exact Ha| |exact E2]. exact W1.
      - apply bind_ok in E as (x & E1 & [= <-]). cbn. split; [eapply put_full_slot; [exact Ha| |exact E1]; exact He|exact Hw']. }
    destruct HI as [W V]. destruct rp; [injection H2 as <-; auto|]. destruct rest as [|r0 rest0].
    + apply bind_ok in H2 as (x & E1 & [= <-]). cbn. split; [|exact I]. eapply put_full_slot; [exact W| |exact E1]. exact V.
    + apply bind_ok in H2 as ([c2 v2] & E1 & E2). apply bind_ok in E2 as (x & E2 & [= <-]). cbn [fst snd] in *.
      destruct (IH None v1 _ I V E1) as [W1 W2]. split; [|exact W2]. eapply put_full_slot; [exact W| |exact E2]. exact W1.
Qed.
Lemma only_full t : forall b b', on full b -> only_path_impl t b = Ok b' -> on full b'.
Proof.
  induction t as [|n rest IH]; intros b b' Hw H; (destruct b as [c|]; [|injection H as <-; exact I]); cbn [only_path_impl] in H;
    (destruct (is_assoc (ckind c)); [|discriminate]);
    match type of H with match ?F with _ => _ end = _ => destruct F as [e|] eqn:E; [|injection H as <-; exact I] end;
    apply find_some in E as [Hi _]; pose proof (entry_full _ _ Hw Hi) as He.
  - apply bind_ok in H as (x & H & [= <-]). cbn [on]. eapply put_full_slot; [apply empty_copy_full|exact He|exact H].
  - destruct rest as [|r0 rest0].
    + apply bind_ok in H as (x & H & [= <-]). cbn [on]. eapply put_full_slot; [apply empty_copy_full|exact He|exact H].
    + apply bind_ok in H as (ch & H1 & H2). apply IH in H1; [|apply object_of_full; exact He]. destruct ch as [ch|]; [|injection H2 as <-; exact I].
      apply bind_ok in H2 as (x & H2 & [= <-]). cbn [on]. eapply put_full_slot; [apply empty_copy_full| |exact H2]. exact H1.
Qed.
Lemma filter_full b names white b' : on full b -> with_filter b names white = Ok b' -> on full b'.
Proof.
  intros Hw H. destruct b as [c|]; [|injection H as <-; exact I]. unfold with_filter in H. destruct (is_assoc (ckind c)); [|discriminate].
  apply bind_ok in H as (x & H & [= <-]); cbn [on]. eapply foldM_inv; [|apply empty_copy_full|exact H]. cbn beta.
  intros a e a' Ha Hi E. pose proof (entry_full _ _ Hw Hi) as He. destruct (e_val e) as [ev|]; [|injection E as <-; exact Ha].
  destruct (eqb white _); [|injection E as <-; exact Ha]. eapply put_full_slot; [exact Ha| |exact E]. exact He.
Qed.
Lemma dfold_inv {A B} (P : A -> Prop) (f : A -> B -> dres A) l :
  (forall a x a', P a -> In x l -> f a x = Run (Ok a') -> P a') -> forall a a', P a -> dfold f l a = Run (Ok a') -> P a'.
Proof.
  induction l as [|x t IH]; intros H a a' Ha E; [injection E as <-; exact Ha|]. cbn in E.
  destruct (f a x) as [[a1| | |]|] eqn:E1; cbn in E; try discriminate.
  apply (IH (fun a0 y a1' P0 Hi => H a0 y a1' P0 (or_intror Hi)) a1 a'); [|exact E]. eapply H; eauto. left; reflexivity.
Qed.
Lemma dbind_ok {A B} (x : dres A) (f : A -> dres B) b : dbind x f = Run (Ok b) -> exists a, x = Run (Ok a) /\ f a = Run (Ok b).
Proof. destruct x as [[a| | |]|]; cbn; try discriminate. intros H. exists a. auto. Qed.
Lemma without_full t : forall b b', on full b -> dwithout_path_impl true t b = Run (Ok b') -> on full b'.
Proof.
  induction t as [|n rest IH]; intros b b' Hw H; [discriminate|].
  cbn [dwithout_path_impl] in H. unfold next, requires in H. cbn [tok_has_next negb andb] in H.
  destruct b as [c|]; [|injection H as <-; exact I]. destruct (is_assoc (ckind c)); [|discriminate].
  apply dbind_ok in H as (x & H & [= <-]); cbn [on]. (eapply dfold_inv; [|apply empty_copy_full|exact H]); cbn beta.
  intros a e a' Ha Hi E; pose proof (entry_full _ _ Hw Hi) as He; (destruct (e_val e) as [ev|] eqn:Eev; [|injection E as <-; exact Ha]).
  destruct (seqb (e_key e) n); [|injection E as E; eapply put_full_slot; [exact Ha| |exact E]; exact He].
  destruct rest as [|r0 rest0]; [injection E as <-; exact Ha|]. apply dbind_ok in E as (ch & E1 & E2).
  apply IH in E1; [|apply object_of_full; exact He]. unfold wrap_config, requires in E2. destruct ch as [ch|]; [|discriminate].
  injection E2 as E2. eapply put_full_slot; [exact Ha| |exact E2]. exact E1.
Qed.
Lemma build_full ops : forall b b', on full b -> Forall (fun o => match op_value o with Some (VConf (Some c)) => full c | _ => True end) ops ->
  foldM apply_op ops b = Ok b' -> on full b'.
Proof.
  induction ops as [|o t IH]; intros b b' Hb Ho H; [injection H as <-; exact Hb|]. inversion Ho as [|? ? H1 H2]; subst.
  cbn in H. apply bind_ok in H as (b1 & E & H). apply (IH b1 b'); [|exact H2|exact H]. clear IH H H2 Ho.
  assert (Hrem : forall c c' k, full c -> remove c k = Ok c' -> full c').
  { intros [k es] c' key Hc E0. rewrite full_slots in Hc.
    assert (Hk : forall n s, In (n, s) (key_erase key es) -> slot_full s).
    { intros n s Hi. unfold key_erase in Hi. apply filter_In in Hi as [Hi _]. eauto. }
    assert (Hk2 : forall l, (forall n s, In (n, s) l -> slot_full s) -> forall n s, In (n, s) (ord_erase key l) -> slot_full s).
    { induction l as [|[k1 s1] l IHl]; intros Hl n s Hi; [destruct Hi|]. cbn in Hi. destruct (seqb k1 key); [apply (Hl n s); right; exact Hi|].
      destruct Hi as [[= <- <-]|Hi]; [apply (Hl k1 s1); left; reflexivity|]. apply IHl with n; [|exact Hi]. intros; eapply Hl; right; eauto. }
    destruct k; cbn in E0; try discriminate; injection E0 as <-; apply full_slots; eauto. }
  assert (Hpop : forall c c', full c -> pop c = Ok c' -> full c').
  { intros [k es] c' Hc E0. rewrite full_slots in Hc. destruct k; cbn in E0; try discriminate.
    destruct es as [|e0 es0]; [discriminate|]. injection E0 as <-. apply full_slots. intros n s Hi. apply (Hc n s).
    rewrite (app_removelast_last e0 (l := e0 :: es0)) by discriminate. apply in_or_app. left. exact Hi. }
  destruct o as [k [| | | |[c|]]|k|[| | | |[c|]]|]; cbn [apply_op op_value] in *;
    try (injection E as <-; exact Hb); (destruct b as [d|]; [|discriminate]); apply bind_ok in E as (d' & E & [= <-]); cbn [on] in *;
    first [ eapply Hrem; eassumption | eapply Hpop; eassumption | eapply put_full_slot; [exact Hb| |exact E]; cbn; auto | eapply add_full_slot; [exact Hb| |exact E]; cbn; auto ].
Qed.

(* ---- the configs of a debug build ---- *)
Lemma dmade_made b : dmade b -> made b.
Proof.
  induction 1 as [|k ops b _ IH H|b o b' _ IH _ IHc _ H|b p c _ IH H].
  - constructor.
  - eapply made_build; eauto.
  - assert (R : release o b = Ok b').
    { destruct (run_agrees true o b) as [E | [_ E]]; rewrite E in H; [injection H as H; exact H|discriminate]. }
    destruct o as [| |p v|p|p|w ns|m pr]; cbn [release] in R.
    + eapply made_clone; eauto.
    + eapply made_shallow; eauto.
    + apply bind_ok in R as (x & R & [= <-]). eapply made_with; [exact IH| |exact R]. intros d ->. apply IHc. reflexivity.
    + eapply made_without; eauto.
    + eapply made_only; eauto.
    + destruct w; [eapply made_white; eauto|eapply made_black; eauto].
    + apply bind_ok in R as (x & R & [= <-]). eapply made_merge; [exact IH| |exact R]. apply IHc. reflexivity.
  - eapply made_object; eauto.
Qed.
Lemma dmade_full b : dmade b -> on full b.
Proof.
  induction 1 as [|k ops b _ IH H|b o b' Hb IH Hc IHc Hn H|b p c _ IH H].
  - exact I.
  - apply (build_full ops (Some (Conf k [])) b); [apply empty_full| |exact H]. apply Forall_forall. intros o Ho.
    destruct (op_value o) as [[| | | |[c|]]|] eqn:E; auto. exact (IH o c Ho E).
  - assert (W : on wf b) by (apply made_wf, dmade_made, Hb).
    assert (R : release o b = Ok b').
    { destruct (run_agrees true o b) as [E | [_ E]]; rewrite E in H; [injection H as H; exact H|discriminate]. }
    destruct o as [| |p v|p|p|w ns|m pr]; cbn [release] in R.
    + unfold clone in R. rewrite clone_id in R by (auto; lia). injection R as <-. exact IH.
    + rewrite shallow_id in R by exact W. injection R as <-. exact IH.
    + apply bind_ok in R as (x & R & [= <-]). apply bind_ok in R as (cv & R & [= <-]). eapply with_full; [exact IH| |exact R].
      destruct v as [| | | |[d|]]; cbn; auto; [apply (IHc (Some d) eq_refl)|apply Hn; exact I].
    + eapply without_full; eauto.
    + eapply only_full; eauto.
    + destruct w; eapply filter_full; eauto.
    + apply bind_ok in R as (x & R & [= <-]). specialize (IHc m eq_refl).
      destruct pr; eapply merge_full; [exact IH|exact IHc|exact R|exact IHc|exact IH|exact R].
  - pose proof (resolve_full (tokenize p) b IH) as HR. unfold at_path in H. rewrite H in HR. exact HR.
Qed.
