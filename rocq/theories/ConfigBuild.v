(* The config builder: what a sequence of calls leaves in the config. *)
From Coq Require Import Ascii List Bool Arith Lia Sorting.Sorted Permutation.
From Verif Require Import ConfigModel ConfigSpec ConfigProofs ConfigCopy.
Import ListNotations.

(* ---- specification ---- *)
(* a null config passed to the builder changes nothing *)
Definition real_value (v : value) : Prop := v <> VConf None.
(* the value the calls leave under the key n *)
Fixpoint last_put (n : str) (ops : list op) (cur : option value) : option value :=
  match ops with
  | [] => cur
  | OPut _ (VConf None) :: t => last_put n t cur
  | OPut k v :: t => last_put n t (if list_eq_dec ascii_dec k n then Some v else cur)
  | ORemove k :: t => last_put n t (if list_eq_dec ascii_dec k n then None else cur)
  | _ :: t => last_put n t cur
  end.
(* the values a multimap holds under the key n, in the order of the calls *)
Fixpoint live_puts (n : str) (ops : list op) (cur : list value) : list value :=
  match ops with
  | [] => cur
  | OPut _ (VConf None) :: t => live_puts n t cur
  | OPut k v :: t => live_puts n t (if list_eq_dec ascii_dec k n then cur ++ [v] else cur)
  | ORemove k :: t => live_puts n t (if list_eq_dec ascii_dec k n then [] else cur)
  | _ :: t => live_puts n t cur
  end.
(* call number i is the put that inserted the entry the calls leave under n *)
Definition born (ops : list op) (n : str) (i : nat) : Prop :=
  (exists v, real_value v /\ nth_error ops i = Some (OPut n v)) /\
  last_put n (firstn i ops) None = None /\
  (forall j, i < j -> nth_error ops j <> Some (ORemove n)).
(* the values add and pop leave *)
Inductive stack : list op -> list value -> Prop :=
| st_nil : stack [] []
| st_add ops xs v : real_value v -> stack ops xs -> stack (ops ++ [OAdd v]) (xs ++ [v])
| st_null ops xs : stack ops xs -> stack (ops ++ [OAdd (VConf None)]) xs
| st_pop ops xs x : stack ops (xs ++ [x]) -> stack (ops ++ [OPop]) xs.
Definition keyed (o : op) : Prop := match o with OPut _ _ | ORemove _ => True | _ => False end.
Definition listed (o : op) : Prop := match o with OAdd _ | OPop => True | _ => False end.
Definition op_wf (o : op) : Prop := match o with OPut _ v | OAdd v => on_value wf v | _ => True end.

(* ---- proofs ---- *)
Lemma foldM_snoc {A B} (f : A -> B -> res A) l x a : foldM f (l ++ [x]) a = bind (foldM f l a) (fun b => f b x).
Proof.
  revert a. induction l as [|y t IH]; intros a; cbn.
  - destruct (f a x); reflexivity.
  - destruct (f a y); cbn; auto.
Qed.
Lemma build_snoc k ops o : build k (ops ++ [o]) = bind (build k ops) (fun b => apply_op b o).
Proof. apply foldM_snoc. Qed.

Definition upd {A} (n : str) (x y : A) (k : str) : A := if list_eq_dec ascii_dec k n then x else y.
Lemma last_put_snoc n ops o cur : last_put n (ops ++ [o]) cur =
  match o with
  | OPut k v => match v with
                | VConf None => last_put n ops cur
                | _ => if list_eq_dec ascii_dec k n then Some v else last_put n ops cur
                end
  | ORemove k => if list_eq_dec ascii_dec k n then None else last_put n ops cur
  | _ => last_put n ops cur
  end.
Proof.
  revert cur. induction ops as [|x t IH]; intros cur.
  - destruct o as [k [| | | |[c|]]|k|v|]; reflexivity.
  - cbn [app last_put]. destruct x as [k' [| | | |[c|]]|k'|v'|]; apply IH.
Qed.
Lemma live_puts_snoc n ops o cur : live_puts n (ops ++ [o]) cur =
  match o with
  | OPut k v => match v with
                | VConf None => live_puts n ops cur
                | _ => if list_eq_dec ascii_dec k n then live_puts n ops cur ++ [v] else live_puts n ops cur
                end
  | ORemove k => if list_eq_dec ascii_dec k n then [] else live_puts n ops cur
  | _ => live_puts n ops cur
  end.
Proof.
  revert cur. induction ops as [|x t IH]; intros cur.
  - destruct o as [k [| | | |[c|]]|k|v|]; reflexivity.
  - cbn [app live_puts]. destruct x as [k' [| | | |[c|]]|k'|v'|]; apply IH.
Qed.
Lemma apply_put c k v : v <> VConf None -> apply_op (Some c) (OPut k v) = bind (put c k (Some v)) (fun c' => Ok (Some c')).
Proof. intros H. destruct v as [| | | |[|]]; try reflexivity. congruence. Qed.
Lemma apply_put_null b k : apply_op b (OPut k (VConf None)) = Ok b.
Proof. reflexivity. Qed.
Lemma apply_add c v : v <> VConf None -> apply_op (Some c) (OAdd v) = bind (add c (Some v)) (fun c' => Ok (Some c')).
Proof. intros H. destruct v as [| | | |[|]]; try reflexivity. congruence. Qed.
Lemma null_dec (v : value) : {v = VConf None} + {v <> VConf None}.
Proof. destruct v as [| | | |[|]]; try (right; discriminate). left; reflexivity. Qed.
Lemma last_put_put n ops k v cur : v <> VConf None ->
  last_put n (ops ++ [OPut k v]) cur = if list_eq_dec ascii_dec k n then Some v else last_put n ops cur.
Proof. intros H. rewrite last_put_snoc. destruct v as [| | | |[|]]; try reflexivity. congruence. Qed.
Lemma live_puts_put n ops k v cur : v <> VConf None ->
  live_puts n (ops ++ [OPut k v]) cur = if list_eq_dec ascii_dec k n then live_puts n ops cur ++ [v] else live_puts n ops cur.
Proof. intros H. rewrite live_puts_snoc. destruct v as [| | | |[|]]; try reflexivity. congruence. Qed.

(* the map *)
Lemma assoc_key_erase k n es : NoDup (map fst es) -> assoc n (key_erase k es) = if list_eq_dec ascii_dec k n then None else assoc n es.
Proof.
  intros _. induction es as [|[k' v'] t IH]; cbn [key_erase filter].
  - destruct (list_eq_dec ascii_dec k n); reflexivity.
  - fold (key_erase k t). cbn [fst]. destruct (seqb k' k) eqn:E; cbn [negb].
    + apply seqb_spec in E. subst k'. rewrite IH, assoc_cons.
      destruct (list_eq_dec ascii_dec k n) as [->|Hne]; [reflexivity|].
      apply seqb_neq in Hne. rewrite Hne. reflexivity.
    + rewrite !assoc_cons, IH. destruct (seqb k' n) eqn:E2; [|reflexivity]. apply seqb_spec in E2. subst k'.
      destruct (list_eq_dec ascii_dec k n) as [->|Hne]; [|reflexivity]. rewrite seqb_refl in E. discriminate.
Qed.
Lemma key_erase_sub k es : sublist (map fst (key_erase k es)) (map fst es).
Proof. induction es as [|[k' v'] t IH]; cbn; [constructor|]. destruct (seqb k' k); cbn; [apply sub_skip|apply sub_keep]; exact IH. Qed.
Lemma key_erase_in k es e : In e (key_erase k es) -> In e es.
Proof. unfold key_erase. intros H. apply filter_In in H. tauto. Qed.
Lemma seqb_dec k n {A} (x y : A) : (if seqb k n then x else y) = (if list_eq_dec ascii_dec k n then x else y).
Proof. unfold seqb. destruct (list_eq_dec ascii_dec k n); reflexivity. Qed.

Lemma build_map ops : Forall keyed ops -> exists es : list (str * slot), build KMap ops = Ok (Some (Conf KMap es)) /\
  StronglySorted slt (map fst es) /\ (forall n, ~ In (n, None) es) /\ (forall n, assoc n es = last_put n ops None).
Proof.
  induction ops as [|o ops IH] using rev_ind; intros H.
  - exists (@nil (str * slot)). repeat split; cbn; auto. constructor.
  - apply Forall_app in H as [H Ho]. inversion Ho as [|? ? Hk _]; subst. destruct (IH H) as (es & E & S & N & A).
    rewrite build_snoc, E. cbn [bind]. destruct o as [k v|k|v|]; try contradiction.
    + destruct (null_dec v) as [->|Hv].
      { exists es. split; [reflexivity|]. split; [exact S|]. split; [exact N|]. intros n. rewrite last_put_snoc. apply A. }
      rewrite apply_put by exact Hv. cbn [put bind]. eexists. split; [reflexivity|]. split; [apply map_put_sorted, S|]. split.
      * intros n Hi. apply map_put_in in Hi as [[_ Hi]|Hi]; [discriminate|]. exact (N n Hi).
      * intros n. rewrite assoc_map_put by exact S. rewrite last_put_put by exact Hv. rewrite seqb_dec, A. reflexivity.
    + cbn [apply_op remove bind]. eexists. split; [reflexivity|]. split; [|split].
      * eapply sublist_sorted; [apply key_erase_sub|exact S].
      * intros n Hi. apply key_erase_in in Hi. exact (N n Hi).
      * intros n. rewrite assoc_key_erase by (apply slt_nodup, S). rewrite last_put_snoc, A. reflexivity.
Qed.

(* the multimap *)
Definition vals_of (n : str) (es : list (str * slot)) : list slot := map snd (filter (fun e => seqb (fst e) n) es).
Lemma vals_multi_put k v n es : StronglySorted sle (map fst es) ->
  vals_of n (multi_put k v es) = if list_eq_dec ascii_dec k n then vals_of n es ++ [v] else vals_of n es.
Proof.
  unfold vals_of. induction es as [|[k' v'] t IH]; intros S.
  - cbn. rewrite seqb_dec. destruct (list_eq_dec ascii_dec k n); reflexivity.
  - cbn [multi_put]. inversion S as [|? ? S' F]; subst. rewrite Forall_forall in F.
    destruct (scmp k k') eqn:E.
    + cbn [filter fst]. rewrite ?(seqb_dec k' n). destruct (list_eq_dec ascii_dec k' n); cbn [map snd]; rewrite IH by exact S'; destruct (list_eq_dec ascii_dec k n); reflexivity.
    + apply scmp_lt in E. cbn [filter fst]. rewrite (seqb_dec k n).
      destruct (list_eq_dec ascii_dec k n) as [->|Hne]; [|reflexivity].
      assert (Hno : forall e, In e ((k', v') :: t) -> seqb (fst e) n = false).
      { intros e Hi. apply seqb_neq. intros Heq. destruct Hi as [<-|Hi].
        - cbn in Heq. subst. exact (slt_irrefl _ E).
        - specialize (F (fst e) (in_map fst _ _ Hi)). rewrite Heq in F. destruct F as [F| ->].
          + exact (slt_irrefl _ (slt_trans _ _ _ E F)).
          + exact (slt_irrefl _ E). }
      assert (Hf : filter (fun e => seqb (fst e) n) ((k', v') :: t) = []).
      { clear -Hno. induction ((k', v') :: t) as [|e l IHl]; [reflexivity|]. cbn. rewrite Hno by (left; reflexivity). apply IHl. intros x Hx. apply Hno. right; exact Hx. }
      cbn [filter fst] in Hf. rewrite Hf. reflexivity.
    + cbn [filter fst]. rewrite ?(seqb_dec k' n). destruct (list_eq_dec ascii_dec k' n); cbn [map snd]; rewrite IH by exact S'; destruct (list_eq_dec ascii_dec k n); reflexivity.
Qed.
Lemma vals_key_erase k n es : vals_of n (key_erase k es) = if list_eq_dec ascii_dec k n then [] else vals_of n es.
Proof.
  unfold vals_of. induction es as [|[k' v'] t IH]; cbn [key_erase filter fst].
  - destruct (list_eq_dec ascii_dec k n); reflexivity.
  - fold (key_erase k t). destruct (seqb k' k) eqn:E; cbn [negb].
    + apply seqb_spec in E. subst k'. rewrite IH, seqb_dec. destruct (list_eq_dec ascii_dec k n); reflexivity.
    + cbn [filter fst]. rewrite !(seqb_dec k' n). destruct (list_eq_dec ascii_dec k' n) as [->|Hne]; [|exact IH].
      cbn [map snd]. rewrite IH. destruct (list_eq_dec ascii_dec k n) as [->|Hne2]; [|reflexivity]. rewrite seqb_refl in E. discriminate.
Qed.
Lemma sle_sub l1 l2 : sublist l1 l2 -> StronglySorted sle l2 -> StronglySorted sle l1.
Proof. apply sublist_sorted. Qed.
Lemma build_multi ops : Forall keyed ops -> exists es : list (str * slot), build KMulti ops = Ok (Some (Conf KMulti es)) /\
  StronglySorted sle (map fst es) /\ (forall n, vals_of n es = map Some (live_puts n ops [])).
Proof.
  induction ops as [|o ops IH] using rev_ind; intros H.
  - exists (@nil (str * slot)). repeat split; cbn; auto. constructor.
  - apply Forall_app in H as [H Ho]. inversion Ho as [|? ? Hk _]; subst. destruct (IH H) as (es & E & S & A).
    rewrite build_snoc, E. cbn [bind]. destruct o as [k v|k|v|]; try contradiction.
    + destruct (null_dec v) as [->|Hv].
      { exists es. split; [reflexivity|]. split; [exact S|]. intros n. rewrite live_puts_snoc. apply A. }
      rewrite apply_put by exact Hv. cbn [put bind]. eexists. split; [reflexivity|]. split; [apply multi_put_sorted, S|].
      intros n. rewrite vals_multi_put by exact S. rewrite live_puts_put by exact Hv. rewrite A. destruct (list_eq_dec ascii_dec k n); [|reflexivity].
      rewrite map_app. reflexivity.
    + cbn [apply_op remove bind]. eexists. split; [reflexivity|]. split.
      * eapply sle_sub; [apply key_erase_sub|exact S].
      * intros n. rewrite vals_key_erase, live_puts_snoc, A. destruct (list_eq_dec ascii_dec k n); reflexivity.
Qed.

(* the ordered map *)
Lemma ord_put_keys k v es : map fst (ord_put k v es) = if in_dec (list_eq_dec ascii_dec) k (map fst es) then map fst es else map fst es ++ [k].
Proof.
  induction es as [|[k' v'] t IH]; [reflexivity|]. cbn [ord_put map fst]. rewrite seqb_dec.
  destruct (list_eq_dec ascii_dec k' k) as [->|Hne].
  - destruct (in_dec (list_eq_dec ascii_dec) k (k :: map fst t)) as [_|Hn]; [reflexivity|]. exfalso. apply Hn. left; reflexivity.
  - cbn [map fst]. rewrite IH. destruct (in_dec (list_eq_dec ascii_dec) k (map fst t)) as [Hi|Hi];
      destruct (in_dec (list_eq_dec ascii_dec) k (k' :: map fst t)) as [Hj|Hj]; try reflexivity.
    + exfalso. apply Hj. right; exact Hi.
    + exfalso. destruct Hj as [->|Hj]; [congruence|exact (Hi Hj)].
Qed.
Lemma assoc_ord_put k v n es : assoc n (ord_put k v es) = if list_eq_dec ascii_dec k n then v else assoc n es.
Proof.
  induction es as [|[k' v'] t IH]; cbn [ord_put].
  - rewrite assoc_cons, seqb_dec. reflexivity.
  - rewrite (seqb_dec k' k). destruct (list_eq_dec ascii_dec k' k) as [->|Hne]; rewrite !assoc_cons, !seqb_dec.
    + destruct (list_eq_dec ascii_dec k n); reflexivity.
    + rewrite IH. destruct (list_eq_dec ascii_dec k' n) as [->|Hn]; [|reflexivity].
      destruct (list_eq_dec ascii_dec k n) as [->|]; [congruence|reflexivity].
Qed.
Lemma ord_put_in k v es n w : In (n, w) (ord_put k v es) -> (n = k /\ w = v) \/ In (n, w) es.
Proof.
  induction es as [|[k' v'] t IH]; cbn [ord_put].
  - intros [[= <- <-]|[]]. auto.
  - rewrite seqb_dec. destruct (list_eq_dec ascii_dec k' k) as [->|Hne].
    + intros [[= <- <-]|Hi]; [auto|right; right; exact Hi].
    + intros [[= <- <-]|Hi]; [right; left; reflexivity|]. apply IH in Hi as [Hi|Hi]; [auto|right; right; exact Hi].
Qed.
Lemma nodup_add {A} (l : list A) x : NoDup l -> ~ In x l -> NoDup (l ++ [x]).
Proof.
  intros H Hx. apply (Permutation_NoDup (l := x :: l)); [apply Permutation_cons_append|]. constructor; assumption.
Qed.
Lemma filter_all {A} (f : A -> bool) l : (forall x, In x l -> f x = true) -> filter f l = l.
Proof. induction l as [|a t IH]; intros H; [reflexivity|]. cbn. rewrite H by (left; reflexivity). f_equal. apply IH. intros x Hx. apply H. right; exact Hx. Qed.
Lemma ord_put_nodup k v es : NoDup (map fst es) -> NoDup (map fst (ord_put k v es)).
Proof.
  intros H. rewrite ord_put_keys. destruct (in_dec (list_eq_dec ascii_dec) k (map fst es)); [exact H|]. apply nodup_add; assumption.
Qed.
Lemma ord_erase_key k es : NoDup (map fst es) -> ord_erase k es = key_erase k es.
Proof.
  induction es as [|[k' v'] t IH]; intros H; [reflexivity|]. cbn [ord_erase key_erase filter fst]. fold (key_erase k t). inversion H as [|? ? Hn H']; subst.
  destruct (seqb k' k) eqn:E; cbn [negb].
  - apply seqb_spec in E. subst k'. symmetry. unfold key_erase. apply filter_all. intros e Hi.
    apply negb_true_iff, seqb_neq. intros <-. apply Hn. apply in_map. exact Hi.
  - f_equal. apply IH. exact H'.
Qed.
Definition earlier (ops : list op) (n m : str) : Prop := exists i j, born ops n i /\ born ops m j /\ i < j.
Lemma born_lt ops n i : born ops n i -> i < length ops.
Proof. intros ((v & _ & H) & _). apply nth_error_Some. congruence. Qed.
Lemma born_live ops n i : born ops n i -> last_put n ops None <> None.
Proof.
  intros H. pose proof (born_lt _ _ _ H) as Hlt. revert H. induction ops as [|o ops IH] using rev_ind; intros ((v & Hv & Hn) & Hf & Hr); [cbn in Hlt; lia|].
  rewrite app_length in Hlt. cbn in Hlt. destruct (Nat.eq_dec i (length ops)) as [->|Hne].
  - rewrite nth_error_app2 in Hn by lia. rewrite Nat.sub_diag in Hn. cbn in Hn. injection Hn as ->.
    rewrite last_put_put by exact Hv. destruct (list_eq_dec ascii_dec n n); congruence.
  - assert (Hb : born ops n i).
    { split; [exists v; split; [exact Hv|rewrite nth_error_app1 in Hn by lia; exact Hn]|]. split.
      - rewrite firstn_app in Hf. replace (i - length ops) with 0 in Hf by lia. cbn in Hf. rewrite app_nil_r in Hf. exact Hf.
      - intros j Hj Hn'. apply (Hr j Hj). rewrite nth_error_app1; [exact Hn'|]. apply nth_error_Some. congruence. }
    rewrite last_put_snoc. assert (Hl : last_put n ops None <> None) by (apply IH; [lia|exact Hb]).
    destruct o as [k w|k|w|]; try exact Hl.
    + destruct w as [| | | |[|]]; try (destruct (list_eq_dec ascii_dec k n); [discriminate|exact Hl]). exact Hl.
    + destruct (list_eq_dec ascii_dec k n) as [->|Hk]; [|exact Hl]. exfalso. apply (Hr (length ops)); [lia|].
      rewrite nth_error_app2 by lia. rewrite Nat.sub_diag. reflexivity.
Qed.
Lemma born_keep ops o n i : born ops n i -> o <> ORemove n -> born (ops ++ [o]) n i.
Proof.
  intros H Ho. pose proof (born_lt _ _ _ H) as Hlt. destruct H as ((v & Hv & Hn) & Hf & Hr). split; [|split].
  - exists v. split; [exact Hv|]. rewrite nth_error_app1 by exact Hlt. exact Hn.
  - rewrite firstn_app. replace (i - length ops) with 0 by lia. cbn. rewrite app_nil_r. exact Hf.
  - intros j Hj Hn'. destruct (Nat.lt_ge_cases j (length ops)) as [Hl|Hl].
    + rewrite nth_error_app1 in Hn' by exact Hl. exact (Hr j Hj Hn').
    + rewrite nth_error_app2 in Hn' by exact Hl. destruct (j - length ops); cbn in Hn'; [congruence|]. destruct n0; discriminate.
Qed.
Lemma born_new ops n v : real_value v -> last_put n ops None = None -> born (ops ++ [OPut n v]) n (length ops).
Proof.
  intros Hv Hl. split; [|split].
  - exists v. split; [exact Hv|]. rewrite nth_error_app2, Nat.sub_diag by lia. reflexivity.
  - rewrite firstn_app, Nat.sub_diag, firstn_all. cbn. rewrite app_nil_r. exact Hl.
  - intros j Hj Hn. apply (f_equal (fun o => match o with Some _ => true | None => false end)) in Hn as Hs.
    assert (j < length (ops ++ [OPut n v])) by (apply nth_error_Some; congruence). rewrite app_length in H. cbn in H. lia.
Qed.
Lemma sorted_mono {A} (R R' : A -> A -> Prop) l : (forall x y, In x l -> In y l -> R x y -> R' x y) -> StronglySorted R l -> StronglySorted R' l.
Proof.
  intros HR S. induction S as [|x l S IH F]; constructor.
  - apply IH. intros a b Ha Hb. apply HR; right; assumption.
  - rewrite Forall_forall in *. intros y Hy. apply HR; [left; reflexivity|right; exact Hy|auto].
Qed.
Lemma sorted_snoc {A} (R : A -> A -> Prop) l x : StronglySorted R l -> (forall y, In y l -> R y x) -> StronglySorted R (l ++ [x]).
Proof.
  intros S H. induction S as [|a l S IH F]; cbn; [repeat constructor|]. constructor.
  - apply IH. intros y Hy. apply H. right; exact Hy.
  - apply Forall_app. split; [exact F|]. constructor; [apply H; left; reflexivity|constructor].
Qed.
Lemma build_ordered ops : Forall keyed ops -> exists es : list (str * slot), build KOrdered ops = Ok (Some (Conf KOrdered es)) /\
  NoDup (map fst es) /\ (forall n, ~ In (n, None) es) /\ (forall n, assoc n es = last_put n ops None) /\
  (forall n, In n (map fst es) -> exists i, born ops n i) /\ StronglySorted (earlier ops) (map fst es).
Proof.
  induction ops as [|o ops IH] using rev_ind; intros H.
  - exists (@nil (str * slot)). repeat split; cbn; auto; try constructor. intros n [].
  - apply Forall_app in H as [H Ho]. inversion Ho as [|? ? Hk _]; subst. destruct (IH H) as (es & E & D & N & A & B & S).
    assert (Hkeep : forall o n m, o <> ORemove n -> o <> ORemove m -> earlier ops n m -> earlier (ops ++ [o]) n m).
    { intros o' n m H1 H2 (i & j & Hi & Hj & Hij). exists i, j. split; [apply born_keep; auto|]. split; [apply born_keep; auto|exact Hij]. }
    rewrite build_snoc, E. cbn [bind]. destruct o as [k v|k|v|]; try contradiction.
    + destruct (null_dec v) as [->|Hv].
      { exists es. split; [reflexivity|]. split; [exact D|]. split; [exact N|]. split; [intros n; rewrite last_put_snoc; apply A|]. split.
        - intros n Hi. destruct (B n Hi) as (i & Hb). exists i. apply born_keep; [exact Hb|discriminate].
        - eapply sorted_mono; [|exact S]. intros; apply Hkeep; try discriminate; assumption. }
      rewrite apply_put by exact Hv. cbn [put bind]. exists (ord_put k (Some v) es). split; [reflexivity|].
      pose proof (ord_put_keys k (Some v) es) as EK. destruct (in_dec (list_eq_dec ascii_dec) k (map fst es)) as [Hi|Hi]; rewrite ?EK.
      * split; [exact D|]. split; [|split; [|split]].
        -- intros n Hin. apply ord_put_in in Hin as [[_ Hin]|Hin]; [discriminate|exact (N n Hin)].
        -- intros n. rewrite assoc_ord_put, last_put_put, A by exact Hv. reflexivity.
        -- intros n Hn. destruct (B n Hn) as (i & Hb). exists i. apply born_keep; [exact Hb|discriminate].
        -- eapply sorted_mono; [|exact S]. intros; apply Hkeep; try discriminate; assumption.
      * assert (Hnew : born (ops ++ [OPut k v]) k (length ops)).
        { apply born_new; [exact Hv|]. rewrite <- A. apply assoc_notin. exact Hi. }
        split; [|split; [|split; [|split]]].
        -- apply nodup_add; assumption.
        -- intros n Hin. apply ord_put_in in Hin as [[_ Hin]|Hin]; [discriminate|exact (N n Hin)].
        -- intros n. rewrite assoc_ord_put, last_put_put, A by exact Hv. reflexivity.
        -- intros n Hn. apply in_app_iff in Hn as [Hn|[<-|[]]]; [|eauto]. destruct (B n Hn) as (i & Hb). exists i. apply born_keep; [exact Hb|discriminate].
        -- apply sorted_snoc.
           ++ eapply sorted_mono; [|exact S]. intros; apply Hkeep; try discriminate; assumption.
           ++ intros n Hn. destruct (B n Hn) as (i & Hb). exists i, (length ops). split; [apply born_keep; [exact Hb|discriminate]|].
              split; [exact Hnew|]. exact (born_lt _ _ _ Hb).
    + cbn [apply_op remove bind]. eexists. split; [reflexivity|]. rewrite ord_erase_key by exact D.
      assert (Hsub := key_erase_sub k es).
      assert (Hnk : forall n, In n (map fst (key_erase k es)) -> n <> k).
      { intros n Hi ->. apply in_map_iff in Hi as (e & He & Hi). unfold key_erase in Hi. apply filter_In in Hi as [_ Hi].
        rewrite He, seqb_refl in Hi. discriminate. }
      split; [|split; [|split; [|split]]].
      * eapply sublist_nodup; eauto.
      * intros n Hi. apply key_erase_in in Hi. exact (N n Hi).
      * intros n. rewrite assoc_key_erase, last_put_snoc, A by exact D. reflexivity.
      * intros n Hn. destruct (B n) as (i & Hb); [eapply sublist_in; eauto|]. exists i. apply born_keep; [exact Hb|]. intros [= <-]. exact (Hnk _ Hn eq_refl).
      * eapply sorted_mono; [|eapply sublist_sorted; [exact Hsub|exact S]]. intros x y Hx Hy. apply Hkeep; intros [= Hx0]; [exact (Hnk x Hx (eq_sym Hx0))|exact (Hnk y Hy (eq_sym Hx0))].
Qed.

(* the array *)
Lemma removelast_snoc {A} (l : list A) x : removelast (l ++ [x]) = l.
Proof. apply removelast_last. Qed.
Definition cells (xs : list value) : list (str * slot) := map (fun v => ([], Some v)) xs.
Lemma build_array_ok ops xs : stack ops xs -> build KArray ops = Ok (Some (Conf KArray (cells xs))).
Proof.
  induction 1 as [|ops xs v Hv H IH|ops xs H IH|ops xs x H IH]; [reflexivity| | |]; rewrite build_snoc, IH; cbn [bind].
  - rewrite apply_add by exact Hv. cbn [add bind]. unfold cells. rewrite map_app. reflexivity.
  - reflexivity.
  - cbn [apply_op]. unfold cells. rewrite map_app. cbn [map]. unfold pop. 
    destruct (map (fun v => ([], Some v)) xs ++ [([], Some x)]) eqn:E; [destruct xs; discriminate|]. rewrite <- E.
    rewrite removelast_snoc. reflexivity.
Qed.
Lemma build_array ops : Forall listed ops -> (exists xs, stack ops xs) \/ (build KArray ops = UB /\ exists pre xs post, ops = pre ++ OPop :: post /\ stack pre xs /\ xs = []).
Proof.
  induction ops as [|o ops IH] using rev_ind; intros H.
  - left. exists []. constructor.
  - apply Forall_app in H as [H Ho]. inversion Ho as [|? ? Hk _]; subst. destruct (IH H) as [(xs & Hs)|(E & pre & xs & post & -> & Hs & ->)].
    + destruct o as [k v|k|v|]; try contradiction.
      * left. destruct (null_dec v) as [->|Hv]; [exists xs; constructor; exact Hs|exists (xs ++ [v]); constructor; auto].
      * destruct xs as [|x xs] using rev_ind.
        -- right. split; [|exists ops, [], []; auto]. rewrite build_snoc, (build_array_ok _ _ Hs). reflexivity.
        -- left. exists xs. econstructor. exact Hs.
    + right. split; [rewrite build_snoc, E; reflexivity|]. exists pre, [], (post ++ [o]). rewrite <- app_assoc. auto.
Qed.

(* a call that does not fit the kind of the config *)
Lemma build_mixed k ops o : (is_assoc k = true -> Forall keyed ops) -> (is_assoc k = false -> exists xs, stack ops xs) ->
  (if is_assoc k then match o with OAdd v => real_value v | OPop => True | _ => False end
   else match o with OPut _ v => real_value v | ORemove _ => True | _ => False end) ->
  build k (ops ++ [o]) = Throw.
Proof.
  intros H1 H2 Ho. rewrite build_snoc. destruct k; cbn [is_assoc] in *.
  - destruct (build_map ops (H1 eq_refl)) as (es & -> & _). cbn [bind]. destruct o as [k v|k|v|]; try contradiction; [|reflexivity].
    rewrite apply_add by exact Ho. reflexivity.
  - destruct (build_multi ops (H1 eq_refl)) as (es & -> & _). cbn [bind]. destruct o as [k v|k|v|]; try contradiction; [|reflexivity].
    rewrite apply_add by exact Ho. reflexivity.
  - destruct (build_ordered ops (H1 eq_refl)) as (es & -> & _). cbn [bind]. destruct o as [k v|k|v|]; try contradiction; [|reflexivity].
    rewrite apply_add by exact Ho. reflexivity.
  - destruct (H2 eq_refl) as (xs & Hs). rewrite (build_array_ok _ _ Hs). cbn [bind]. destruct o as [k v|k|v|]; try contradiction; [|reflexivity].
    rewrite apply_put by exact Ho. reflexivity.
Qed.

(* built configs are well formed *)
Lemma multi_put_in k v es e : In e (multi_put k v es) -> e = (k, v) \/ In e es.
Proof. intros H. apply (Permutation_in _ (multi_put_perm k v es)) in H. destruct H; auto. Qed.
Lemma ord_erase_in k es e : In e (ord_erase k es) -> In e es.
Proof. induction es as [|[k' v'] t IH]; cbn; [tauto|]. destruct (seqb k' k); cbn; tauto. Qed.
Lemma ord_erase_sub k es : sublist (map fst (ord_erase k es)) (map fst es).
Proof.
  induction es as [|[k' v'] t IH]; cbn; [constructor|]. destruct (seqb k' k); cbn; [apply sub_skip, sublist_refl|apply sub_keep, IH].
Qed.
Lemma put_wf c k v c' : wf c -> on_value wf v -> put c k (Some v) = Ok c' -> wf c'.
Proof.
  intros Hw Hv H. destruct c as [kk es]. inversion Hw as [? ? Hk Hs]; subst.
  assert (Hval : forall c0, v = VConf (Some c0) -> wf c0) by (intros c0 ->; exact Hv).
  destruct kk; cbn in H; try discriminate; injection H as <-; constructor; cbn [keys_ok] in *.
  - apply map_put_sorted. exact Hk.
  - intros n c0 Hi. apply map_put_in in Hi as [[_ Hi]|Hi]; [injection Hi as Hi; auto|eauto].
  - apply multi_put_sorted. exact Hk.
  - intros n c0 Hi. apply multi_put_in in Hi as [Hi|Hi]; [injection Hi as _ Hi; auto|eauto].
  - apply ord_put_nodup. exact Hk.
  - intros n c0 Hi. apply ord_put_in in Hi as [[_ Hi]|Hi]; [injection Hi as Hi; auto|eauto].
Qed.
Lemma remove_wf c k c' : wf c -> remove c k = Ok c' -> wf c'.
Proof.
  intros Hw H. destruct c as [kk es]. inversion Hw as [? ? Hk Hs]; subst.
  destruct kk; cbn in H; try discriminate; injection H as <-; constructor; cbn [keys_ok] in *.
  - eapply sublist_sorted; [apply key_erase_sub|exact Hk].
  - intros n c0 Hi. apply key_erase_in in Hi. eauto.
  - eapply sublist_sorted; [apply key_erase_sub|exact Hk].
  - intros n c0 Hi. apply key_erase_in in Hi. eauto.
  - eapply sublist_nodup; [apply ord_erase_sub|exact Hk].
  - intros n c0 Hi. apply ord_erase_in in Hi. eauto.
Qed.
Lemma removelast_in {A} (l : list A) x : In x (removelast l) -> In x l.
Proof. induction l as [|a t IH]; cbn; [tauto|]. destruct t; [cbn; tauto|]. intros [->|H]; [left; reflexivity|right; apply IH; exact H]. Qed.
Lemma apply_wf b o b' : on wf b -> op_wf o -> apply_op b o = Ok b' -> on wf b'.
Proof.
  intros Hb Ho H. destruct o as [k v|k|v|].
  - destruct (null_dec v) as [->|Hv]; [injection H as <-; exact Hb|].
    destruct b as [c|]; [|destruct v as [| | | |[|]]; try discriminate; congruence].
    rewrite apply_put in H by exact Hv. apply bind_ok in H as (c' & H & [= <-]). cbn. eapply put_wf; eauto.
  - destruct b as [c|]; [|discriminate]. apply bind_ok in H as (c' & H & [= <-]). cbn. eapply remove_wf; eauto.
  - destruct (null_dec v) as [->|Hv]; [injection H as <-; exact Hb|].
    destruct b as [c|]; [|destruct v as [| | | |[|]]; try discriminate; congruence].
    rewrite apply_add in H by exact Hv. apply bind_ok in H as (c' & H & [= <-]). cbn.
    destruct c as [[] es]; try discriminate. injection H as <-. inversion Hb as [? ? Hk Hs]; subst. constructor.
    + cbn in *. rewrite map_app. apply Forall_app. split; [exact Hk|]. repeat constructor.
    + intros n c0 Hi. apply in_app_iff in Hi as [Hi|[Hi|[]]]; [eauto|]. injection Hi as _ ->. exact Ho.
  - destruct b as [c|]; [|discriminate]. apply bind_ok in H as (c' & H & [= <-]). cbn.
    destruct c as [[] es]; try discriminate. unfold pop in H. destruct es as [|e es]; [discriminate|]. remember (e :: es) as l. injection H as <-. inversion Hb as [? ? Hk Hs]; subst k es0. constructor.
    + cbn in *. rewrite Forall_forall in *. intros x Hx. apply in_map_iff in Hx as (y & <- & Hy). apply Hk. apply in_map. apply removelast_in. exact Hy.
    + intros n c0 Hi. apply removelast_in in Hi. eauto.
Qed.
Lemma build_wf k ops b : Forall op_wf ops -> build k ops = Ok b -> on wf b.
Proof.
  revert b. induction ops as [|o ops IH] using rev_ind; intros b H E.
  - injection E as <-. constructor; [destruct k; constructor|]. intros n c [].
  - apply Forall_app in H as [H Ho]. inversion Ho; subst. rewrite build_snoc in E. apply bind_ok in E as (b0 & E0 & E). eapply apply_wf; eauto.
Qed.
