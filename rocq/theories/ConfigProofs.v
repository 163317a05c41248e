(* Lemmas about the config model: order on keys, back end updates, loops over
   entries, reading. *)
From Coq Require Import Ascii List Bool Arith NArith ZArith Lia Sorting.Sorted Sorting.Permutation.
From Verif Require Import TokenModel TokenProofs ConfigModel ConfigSpec.
Import ListNotations.

(* ---- order ---- *)
Lemma N_of_ascii_inj a b : N_of_ascii a = N_of_ascii b -> a = b.
Proof. intros H. rewrite <- (ascii_N_embedding a), <- (ascii_N_embedding b), H. reflexivity. Qed.

Lemma scmp_refl a : scmp a a = Eq.
Proof. induction a as [|x s IH]; cbn; [reflexivity|]. rewrite N.compare_refl. exact IH. Qed.
Lemma scmp_eq a : forall b, scmp a b = Eq <-> a = b.
Proof.
  intros b; split; [|intros ->; apply scmp_refl].
  revert b. induction a as [|x s IH]; intros [|y t]; cbn; try discriminate; [reflexivity|].
  destruct (N.compare_spec (N_of_ascii x) (N_of_ascii y)) as [E|E|E]; try discriminate.
  intros H. apply N_of_ascii_inj in E. subst. f_equal. auto.
Qed.
Lemma scmp_lt a : forall b, scmp a b = Lt <-> slt a b.
Proof.
  induction a as [|x s IH]; intros [|y t]; cbn; split; intros H; try discriminate; try (inversion H; fail); try (apply slt_nil); try reflexivity.
  - destruct (N.compare_spec (N_of_ascii x) (N_of_ascii y)) as [E|E|E]; try discriminate.
    + apply N_of_ascii_inj in E; subst. apply slt_tail. apply IH. exact H.
    + apply slt_head. exact E.
  - inversion H as [|? ? ? ? Hx|? ? ? Hs]; subst.
    + apply N.compare_lt_iff in Hx. rewrite Hx. reflexivity.
    + rewrite N.compare_refl. apply IH. exact Hs.
Qed.
Lemma scmp_anti a : forall b, scmp b a = CompOpp (scmp a b).
Proof.
  induction a as [|x s IH]; intros [|y t]; cbn; try reflexivity.
  rewrite (N.compare_antisym (N_of_ascii x)). destruct (N.compare (N_of_ascii x) (N_of_ascii y)); cbn; auto.
Qed.
Lemma scmp_gt a b : scmp a b = Gt <-> slt b a.
Proof. rewrite <- scmp_lt, (scmp_anti a b). destruct (scmp a b); cbn; split; congruence. Qed.
Lemma slt_trans a b c : slt a b -> slt b c -> slt a c.
Proof.
  intros H. revert c. induction H as [y t|x y s t Hx|x s t Hs IH]; intros c Hc.
  - inversion Hc; subst; constructor.
  - inversion Hc; subst; [apply slt_head; lia|apply slt_head; auto].
  - inversion Hc; subst; [apply slt_head; auto|apply slt_tail; auto].
Qed.
Lemma slt_irrefl a : ~ slt a a.
Proof. intros H. apply scmp_lt in H. rewrite scmp_refl in H. discriminate. Qed.
Lemma slt_total a b : slt a b \/ a = b \/ slt b a.
Proof.
  destruct (scmp a b) eqn:E.
  - right; left. apply scmp_eq; exact E.
  - left. apply scmp_lt; exact E.
  - right; right. apply scmp_gt; exact E.
Qed.
Lemma sle_trans a b c : sle a b -> sle b c -> sle a c.
Proof. intros [H|<-] [H1|<-]; unfold sle; eauto using slt_trans. Qed.
Lemma sltb_spec a b : sltb a b = true <-> slt a b.
Proof. unfold sltb. rewrite <- scmp_lt. destruct (scmp a b); split; congruence. Qed.
Lemma sltb_false a b : sltb a b = false <-> sle b a.
Proof.
  destruct (sltb a b) eqn:E.
  - apply sltb_spec in E. split; [discriminate|]. intros [H| ->]; exfalso; [|eapply slt_irrefl; eauto].
    eapply slt_irrefl, slt_trans; eauto.
  - split; [|reflexivity]. intros _. destruct (slt_total a b) as [H|[->|H]].
    + apply sltb_spec in H. congruence.
    + right; reflexivity.
    + left; exact H.
Qed.
Lemma seqb_spec a b : seqb a b = true <-> a = b.
Proof. unfold seqb. destruct (list_eq_dec ascii_dec a b); split; congruence. Qed.
Lemma seqb_refl a : seqb a a = true.
Proof. apply seqb_spec; reflexivity. Qed.
Lemma seqb_neq a b : seqb a b = false <-> a <> b.
Proof. unfold seqb. destruct (list_eq_dec ascii_dec a b); split; congruence. Qed.
Lemma assoc_cons n k v t : assoc n ((k, v) :: t) = if seqb k n then v else assoc n t.
Proof. cbn. unfold seqb. destruct (list_eq_dec ascii_dec k n); reflexivity. Qed.

(* ---- sublists ---- *)
Inductive sublist {A} : list A -> list A -> Prop :=
| sub_nil : sublist [] []
| sub_skip x l l' : sublist l l' -> sublist l (x :: l')
| sub_keep x l l' : sublist l l' -> sublist (x :: l) (x :: l').
Lemma sublist_refl {A} (l : list A) : sublist l l.
Proof. induction l; [constructor|apply sub_keep; auto]. Qed.
Lemma sublist_nil {A} (l : list A) : sublist [] l.
Proof. induction l; [constructor|apply sub_skip; auto]. Qed.
Lemma sublist_in {A} (l l' : list A) x : sublist l l' -> In x l -> In x l'.
Proof. induction 1; cbn; intuition. Qed.
Lemma sublist_app {A} (a a' b b' : list A) : sublist a a' -> sublist b b' -> sublist (a ++ b) (a' ++ b').
Proof. induction 1; cbn; intros; auto; [apply sub_skip|apply sub_keep]; auto. Qed.
Lemma sublist_map {A B} (f : A -> B) l l' : sublist l l' -> sublist (map f l) (map f l').
Proof. induction 1; cbn; [constructor|apply sub_skip|apply sub_keep]; auto. Qed.
Lemma sublist_filter {A} (f : A -> bool) l : sublist (filter f l) l.
Proof. induction l; cbn; [constructor|]. destruct (f a); [apply sub_keep|apply sub_skip]; auto. Qed.
Lemma sublist_sorted {A} (R : A -> A -> Prop) l l' : sublist l l' -> StronglySorted R l' -> StronglySorted R l.
Proof.
  induction 1; intros H'; auto; inversion H'; subst; auto.
  constructor; auto. rewrite Forall_forall in *. intros y Hy. apply H3. eapply sublist_in; eauto.
Qed.
Lemma sublist_nodup {A} (l l' : list A) : sublist l l' -> NoDup l' -> NoDup l.
Proof.
  induction 1; intros H'; auto; inversion H'; subst; auto.
  constructor; auto. intros Hi. apply H2. eapply sublist_in; eauto.
Qed.
Lemma sublist_forall {A} (P : A -> Prop) l l' : sublist l l' -> Forall P l' -> Forall P l.
Proof. rewrite !Forall_forall. intros H H1 x Hx. apply H1. eapply sublist_in; eauto. Qed.
Lemma keys_ok_sub k l l' : sublist l l' -> keys_ok k l' -> keys_ok k l.
Proof. destruct k; cbn; eauto using sublist_sorted, sublist_nodup, sublist_forall. Qed.
Lemma sorted_app {A} (R : A -> A -> Prop) l x : StronglySorted R (l ++ [x]) -> Forall (fun y => R y x) l.
Proof.
  induction l as [|h t IH]; cbn; [constructor|]. intros H; inversion H; subst. constructor; auto.
  rewrite Forall_forall in H3. apply H3. apply in_or_app; right; left; reflexivity.
Qed.
Lemma nodup_snoc {A} (l : list A) x : NoDup (l ++ [x]) -> ~ In x l.
Proof. intros H. apply NoDup_remove_2 in H. rewrite app_nil_r in H. exact H. Qed.

(* ---- updates at the end ---- *)
Lemma map_put_snoc k v l : Forall (fun y => slt y k) (map fst l) -> map_put k v l = l ++ [(k, v)].
Proof.
  induction l as [|[k' v'] t IH]; cbn; [reflexivity|]. intros H; inversion H; subst.
  apply scmp_gt in H2. rewrite H2. f_equal. auto.
Qed.
Lemma multi_put_snoc k v l : Forall (fun y => sle y k) (map fst l) -> multi_put k v l = l ++ [(k, v)].
Proof.
  induction l as [|[k' v'] t IH]; cbn; [reflexivity|]. intros H; inversion H; subst.
  destruct (scmp k k') eqn:E.
  - f_equal; auto.
  - exfalso. apply scmp_lt in E. destruct H2 as [H2| ->]; eapply slt_irrefl; eauto using slt_trans.
  - f_equal; auto.
Qed.
Lemma ord_put_snoc k v l : ~ In k (map fst l) -> ord_put k v l = l ++ [(k, v)].
Proof.
  induction l as [|[k' v'] t IH]; cbn; [reflexivity|]. intros H.
  destruct (seqb k' k) eqn:E; [apply seqb_spec in E; tauto|]. f_equal. tauto.
Qed.
(* the copying loops insert with put or with add *)
Definition ins (k : kind) (c : conf) (n : str) (v : slot) : res conf := if is_assoc k then put c n v else add c v.
Lemma ins_snoc k acc n v : keys_ok k (map fst acc ++ [n]) -> ins k (Conf k acc) n v = Ok (Conf k (acc ++ [(n, v)])).
Proof.
  intros H. unfold ins. destruct k; cbn in *.
  - rewrite map_put_snoc; auto. apply sorted_app in H; exact H.
  - rewrite multi_put_snoc; auto. apply sorted_app in H; exact H.
  - rewrite ord_put_snoc; auto. apply nodup_snoc in H; exact H.
  - rewrite Forall_app in H. destruct H as [_ H]. inversion H; subst. reflexivity.
Qed.

(* ---- monadic loops ---- *)
Lemma bind_assoc {A B C} (r : res A) (f : A -> res B) (g : B -> res C) :
  bind (bind r f) g = bind r (fun a => bind (f a) g).
Proof. destruct r; reflexivity. Qed.
Lemma bind_ext {A B} (r : res A) (f g : A -> res B) : (forall a, f a = g a) -> bind r f = bind r g.
Proof. intros H; destruct r; cbn; auto. Qed.
Lemma bind_ok {A B} (r : res A) (f : A -> res B) b : bind r f = Ok b -> exists a, r = Ok a /\ f a = Ok b.
Proof. destruct r; cbn; intros H; try discriminate. eauto. Qed.
Lemma foldM_app {A B} (f : A -> B -> res A) l1 l2 a : foldM f (l1 ++ l2) a = bind (foldM f l1 a) (foldM f l2).
Proof. revert a; induction l1 as [|x t IH]; intros a; cbn; [reflexivity|]. rewrite bind_assoc. apply bind_ext. auto. Qed.
Lemma foldM_ext {A B} (f g : A -> B -> res A) l a :
  (forall a x, In x l -> f a x = g a x) -> foldM f l a = foldM g l a.
Proof.
  revert a; induction l as [|x t IH]; intros a H; cbn; [reflexivity|].
  rewrite H by (left; reflexivity). apply bind_ext. intros a'. apply IH. intros; apply H; right; auto.
Qed.
Lemma foldM_map {A B C} (f : A -> C -> res A) (h : B -> C) l a : foldM f (map h l) a = foldM (fun a x => f a (h x)) l a.
Proof. revert a; induction l as [|x t IH]; intros a; cbn; [reflexivity|]. apply bind_ext. auto. Qed.

(* keep or drop each entry, changing only values *)
Fixpoint mapM (g : str * slot -> res (option slot)) (es : list (str * slot)) : res (list (str * slot)) :=
  match es with
  | [] => Ok []
  | e :: t => bind (g e) (fun o => bind (mapM g t) (fun t' =>
                Ok (match o with None => t' | Some v => (fst e, v) :: t' end)))
  end.
(* entries in order of the fold: failures happen left to right *)
Definition step_of (k : kind) (g : str * slot -> res (option slot)) (acc : conf) (e : str * slot) : res conf :=
  bind (g e) (fun o => match o with None => Ok acc | Some v => ins k acc (fst e) v end).
Lemma fold_ins k g es : forall acc, keys_ok k (map fst acc ++ map fst es) ->
  foldM (step_of k g) es (Conf k acc) = bind (mapM g es) (fun es' => Ok (Conf k (acc ++ es'))).
Proof.
  induction es as [|[n s] t IH]; intros acc H; cbn.
  - rewrite app_nil_r. reflexivity.
  - unfold step_of at 1. rewrite !bind_assoc. apply bind_ext. intros [v|]; cbn.
    + rewrite ins_snoc.
      * cbn. rewrite IH.
        -- rewrite bind_assoc. apply bind_ext. intros es'. cbn. rewrite <- app_assoc. reflexivity.
        -- rewrite map_app. cbn. rewrite <- app_assoc. exact H.
      * eapply keys_ok_sub; [|exact H]. apply sublist_app; [apply sublist_refl|]. cbn. apply sub_keep. apply sublist_nil.
    + rewrite bind_assoc. cbn. apply IH. eapply keys_ok_sub; [|exact H]. apply sublist_app; [apply sublist_refl|].
      cbn. apply sub_skip. apply sublist_refl.
Qed.
Lemma mapM_sub g es es' : mapM g es = Ok es' -> sublist (map fst es') (map fst es).
Proof.
  revert es'; induction es as [|[n s] t IH]; cbn; intros es' H.
  - injection H as <-. constructor.
  - apply bind_ok in H as (o & _ & H). apply bind_ok in H as (t' & Ht & H). injection H as <-.
    destruct o; cbn; [apply sub_keep|apply sub_skip]; eauto.
Qed.
Lemma mapM_in g es es' n v : mapM g es = Ok es' -> In (n, v) es' -> exists s, In (n, s) es /\ g (n, s) = Ok (Some v).
Proof.
  revert es'; induction es as [|[m s] t IH]; cbn; intros es' H Hi.
  - injection H as <-. destruct Hi.
  - apply bind_ok in H as (o & Hg & H). apply bind_ok in H as (t' & Ht & H). injection H as <-.
    destruct o as [w|].
    + destruct Hi as [Hi|Hi].
      * cbn in Hi. injection Hi as -> ->. eauto.
      * destruct (IH _ Ht Hi) as (s' & ? & ?). eauto.
    + destruct (IH _ Ht Hi) as (s' & ? & ?). eauto.
Qed.

(* ---- iteration ---- *)
Lemma map_nth_seq {A} (d : A) l : map (fun i => match nth_error l i with Some e => e | None => d end) (seq 0 (length l)) = l.
Proof.
  induction l as [|x t IH]; cbn; [reflexivity|]. f_equal. rewrite <- seq_shift, map_map. exact IH.
Qed.
Definition kv (e : entry) : str * slot := (e_key e, e_val e).
Lemma entry_at_kv c i : kv (entry_at (Some c) i) = find_index c i.
Proof. unfold entry_at, kv. destruct (find_index c i); reflexivity. Qed.
Lemma iterate_kv c : map kv (iterate (Some c)) = centries c.
Proof.
  unfold iterate. rewrite map_map. erewrite map_ext; [|intros; apply entry_at_kv].
  unfold find_index. cbn. apply map_nth_seq.
Qed.
Lemma fold_iterate {A} (f : A -> str * slot -> res A) c a :
  foldM (fun a e => f a (kv e)) (iterate (Some c)) a = foldM f (centries c) a.
Proof. rewrite <- iterate_kv, foldM_map. reflexivity. Qed.
Lemma keys_spec b : keys b = match b with
                             | Some c => if is_assoc (ckind c) then map fst (centries c) else []
                             | None => [] end.
Proof.
  destruct b as [c|]; cbn; [|reflexivity]. destruct (is_assoc (ckind c)); [|reflexivity].
  rewrite <- map_map. f_equal. unfold find_index. apply map_nth_seq.
Qed.
Lemma empty_copy_spec c : empty_copy (Some c) = Conf (ckind c) [].
Proof. unfold empty_copy. destruct (ckind c); reflexivity. Qed.

(* ---- key lookup ---- *)
Lemma find_from_snd i k l : snd (find_from i k l) = assoc k l.
Proof.
  revert i; induction l as [|[k' v] t IH]; intros i; [reflexivity|]. rewrite assoc_cons. cbn.
  destruct (seqb k' k); [reflexivity|apply IH].
Qed.
Definition bassoc (b : option conf) (n : str) : slot := child (VConf b) n.
Lemma bassoc_assoc k es n : is_assoc k = true -> bassoc (Some (Conf k es)) n = assoc n es.
Proof. destruct k; cbn; try discriminate; reflexivity. Qed.
Lemma find_key_snd c k : snd (find_key c k) = bassoc (Some c) k.
Proof. unfold find_key. destruct c as [[] es]; cbn; try apply find_from_snd; reflexivity. Qed.
Lemma vget_object v n rest : vget v (n :: rest) = match child v n with Some v' => vget v' rest | None => None end.
Proof. reflexivity. Qed.
Lemma cget_cons b n rest : cget b (n :: rest) = match bassoc b n with Some v' => vget v' rest | None => None end.
Proof. reflexivity. Qed.
Lemma vget_as_conf v n rest : vget v (n :: rest) = cget (object_of (Some v)) (n :: rest).
Proof. unfold cget. cbn [vget]. destruct v; try reflexivity. Qed.
Lemma resolve_val b t : t <> [] -> e_val (resolve b t) = cget b t.
Proof.
  revert b; induction t as [|n rest IH]; intros b Ht; [congruence|].
  rewrite cget_cons. cbn [resolve]. destruct b as [c|]; [|reflexivity].
  pose proof (find_key_snd c n) as Hf. destruct (find_key c n) as [i v]. cbn [snd] in Hf. subst v.
  destruct rest as [|m rest]; cbn [tok_has_next].
  - cbn [e_val vget]. destruct (bassoc (Some c) n); reflexivity.
  - rewrite IH by discriminate. destruct (bassoc (Some c) n) as [v|].
    + rewrite vget_as_conf. reflexivity.
    + reflexivity.
Qed.
Lemma tokenize_spec p : tokenize p = nonempty_segments ascii (Ascii.eqb (p_sep p)) (p_str p).
Proof. unfold tokenize. rewrite tokens_true. reflexivity. Qed.
Lemma at_path_val b p : tokenize p <> [] -> e_val (at_path b p) = cget b (tokenize p).
Proof. apply resolve_val. Qed.
Lemma at_path_root b p : tokenize p = [] -> e_val (at_path b p) = None.
Proof. unfold at_path. intros ->. reflexivity. Qed.

(* a plain key used as a path names itself *)
Lemma split_plain sep (s : str) : (forall c, In c s -> Ascii.eqb sep c = false) -> split ascii (Ascii.eqb sep) s = [s].
Proof.
  induction s as [|x t IH]; intros H; cbn; [reflexivity|].
  rewrite H by (left; reflexivity). rewrite IH; [reflexivity|]. intros; apply H; right; auto.
Qed.
Lemma tokenize_plain n sep : n <> [] -> ~ In sep n -> tokenize (Path n sep) = [n].
Proof.
  intros H1 H2. rewrite tokenize_spec. unfold nonempty_segments. cbn. rewrite split_plain.
  - cbn. destruct n; [congruence|]. reflexivity.
  - intros c Hc. apply Ascii.eqb_neq. intros ->. auto.
Qed.
Lemma at_key_plain b n : plain_key n -> e_val (at_key b n) = bassoc b n.
Proof.
  intros [H1 H2]. unfold at_key. rewrite at_path_val; rewrite tokenize_plain by assumption; [|discriminate].
  rewrite cget_cons. cbn [vget]. destruct (bassoc b n); reflexivity.
Qed.

(* ---- assoc facts ---- *)
Lemma assoc_in n es v : assoc n es = Some v -> In (n, Some v) es.
Proof.
  induction es as [|[k w] t IH]; [discriminate|]. rewrite assoc_cons. destruct (seqb k n) eqn:E.
  - apply seqb_spec in E. subst. intros ->. left; reflexivity.
  - intros H. right; auto.
Qed.
Lemma assoc_notin n es : ~ In n (map fst es) -> assoc n es = None.
Proof.
  induction es as [|[k w] t IH]; [reflexivity|]. rewrite assoc_cons. cbn. intros H. destruct (seqb k n) eqn:E.
  - apply seqb_spec in E. tauto.
  - tauto.
Qed.
Lemma assoc_nodup n v es : NoDup (map fst es) -> In (n, v) es -> assoc n es = v.
Proof.
  induction es as [|[k w] t IH]; cbn [map fst]; intros H Hi; [destruct Hi|]. inversion H; subst. rewrite assoc_cons.
  destruct Hi as [Hi|Hi].
  - injection Hi as -> ->. rewrite seqb_refl. reflexivity.
  - destruct (seqb k n) eqn:E; [|auto]. apply seqb_spec in E. subst. exfalso. apply H2.
    change n with (fst (n, v)). apply in_map. exact Hi.
Qed.
Lemma assoc_app n a b : assoc n (a ++ b) = if existsb (fun e => seqb (fst e) n) a then assoc n a else assoc n b.
Proof.
  induction a as [|[k w] t IH]; [reflexivity|]. cbn [app]. rewrite !assoc_cons. cbn [existsb fst].
  destruct (seqb k n); cbn; [reflexivity|exact IH].
Qed.
Lemma assoc_map_put k v n es : StronglySorted slt (map fst es) ->
  assoc n (map_put k v es) = if seqb k n then v else assoc n es.
Proof.
  induction es as [|[k' w] t IH]; intros H.
  - cbn [map_put]. rewrite assoc_cons. reflexivity.
  - inversion H; subst. cbn [map_put]. destruct (scmp k k') eqn:E.
    + apply scmp_eq in E. subst. rewrite !assoc_cons. destruct (seqb k' n); reflexivity.
    + rewrite assoc_cons. reflexivity.
    + rewrite !assoc_cons, IH by assumption. destruct (seqb k' n) eqn:E1; [|reflexivity].
      apply seqb_spec in E1. subst. destruct (seqb k n) eqn:E2; [|reflexivity].
      apply seqb_spec in E2. subst. rewrite scmp_refl in E. discriminate.
Qed.
Lemma map_put_keys k v es x : In x (map fst (map_put k v es)) <-> x = k \/ In x (map fst es).
Proof.
  induction es as [|[k' w] t IH]; cbn.
  - intuition.
  - destruct (scmp k k') eqn:E; cbn.
    + apply scmp_eq in E. subst. intuition.
    + intuition.
    + rewrite IH. intuition.
Qed.
Lemma map_put_sorted k v es : StronglySorted slt (map fst es) -> StronglySorted slt (map fst (map_put k v es)).
Proof.
  induction es as [|[k' w] t IH]; cbn; intros H.
  - repeat constructor.
  - inversion H; subst. destruct (scmp k k') eqn:E; cbn.
    + assumption.
    + constructor; [assumption|]. apply scmp_lt in E. constructor; [assumption|].
      rewrite Forall_forall in *. intros x Hx. eapply slt_trans; eauto.
    + constructor; auto. rewrite Forall_forall in *. intros x Hx. apply map_put_keys in Hx. destruct Hx as [->|Hx]; auto.
      apply scmp_gt in E. exact E.
Qed.
Lemma map_put_in k v es n w : In (n, w) (map_put k v es) -> (n = k /\ w = v) \/ In (n, w) es.
Proof.
  induction es as [|[k' w'] t IH]; cbn.
  - intros [H|[]]. injection H as <- <-. auto.
  - destruct (scmp k k') eqn:E; cbn; intros [H|H]; try (injection H as <- <-); auto.
    + apply scmp_eq in E. subst. auto.
    + destruct (IH H); auto.
Qed.
Lemma slt_nodup ks : StronglySorted slt ks -> NoDup ks.
Proof.
  induction 1; constructor; auto. intros Hi. rewrite Forall_forall in H0. eapply slt_irrefl; eauto.
Qed.

(* putting a key that is not there *)
Lemma multi_put_perm k v es : Permutation (multi_put k v es) ((k, v) :: es).
Proof.
  induction es as [|[k' w] t IH]; cbn; [reflexivity|]. destruct (scmp k k'); try reflexivity;
    (etransitivity; [apply perm_skip, IH|apply perm_swap]).
Qed.
Lemma multi_put_sorted k v es : StronglySorted sle (map fst es) -> StronglySorted sle (map fst (multi_put k v es)).
Proof.
  induction es as [|[k' w] t IH]; cbn; intros H; [repeat constructor|]. inversion H; subst.
  assert (Hgen : sle k' k -> StronglySorted sle (k' :: map fst (multi_put k v t))).
  { intros Hle. constructor; auto. rewrite Forall_forall in *. intros x Hx.
    apply (Permutation_in _ (Permutation_map fst (multi_put_perm k v t))) in Hx. cbn in Hx.
    destruct Hx as [<-|Hx]; auto. }
  destruct (scmp k k') eqn:E; cbn.
  - apply Hgen. apply scmp_eq in E. right; auto.
  - apply scmp_lt in E. constructor; [assumption|]. constructor; [left; assumption|].
    rewrite Forall_forall in *. intros x Hx. eapply sle_trans; [left; exact E|]. auto.
  - apply Hgen. apply scmp_gt in E. left; auto.
Qed.
Lemma map_put_perm k v es : ~ In k (map fst es) -> Permutation (map_put k v es) ((k, v) :: es).
Proof.
  induction es as [|[k' w] t IH]; cbn; intros H; [reflexivity|]. destruct (scmp k k') eqn:E; try reflexivity.
  - apply scmp_eq in E. subst. tauto.
  - etransitivity; [apply perm_skip, IH; tauto|apply perm_swap].
Qed.
Lemma put_fresh k es n v : is_assoc k = true -> keys_ok k (map fst es) -> ~ In n (map fst es) ->
  exists es', put (Conf k es) n v = Ok (Conf k es') /\ keys_ok k (map fst es') /\ Permutation es' ((n, v) :: es).
Proof.
  intros Hk Hok Hn. destruct k; try discriminate; cbn [put]; eexists; (split; [reflexivity|]); cbn in *.
  - split; [apply map_put_sorted; auto|apply map_put_perm; auto].
  - split; [apply multi_put_sorted; auto|apply multi_put_perm].
  - rewrite ord_put_snoc by auto. split.
    + rewrite map_app. cbn. 
      apply (Permutation_NoDup (l := n :: map fst es)).
      * apply Permutation_cons_append.
      * constructor; auto.
    + symmetry. apply Permutation_cons_append.
Qed.
Lemma assoc_perm n es es' : NoDup (map fst es) -> Permutation es es' -> assoc n es = assoc n es'.
Proof.
  intros H Hp. destruct (in_dec (list_eq_dec ascii_dec) n (map fst es)) as [Hi|Hi].
  - apply in_map_iff in Hi as ([m v] & Hm & Hi). cbn in Hm. subst m.
    rewrite (assoc_nodup n v es) by auto. symmetry. apply assoc_nodup.
    + eapply Permutation_NoDup; [apply Permutation_map; exact Hp|exact H].
    + eapply Permutation_in; eauto.
  - rewrite !assoc_notin; auto. intros Hi'. apply Hi.
    eapply Permutation_in; [symmetry; apply Permutation_map; exact Hp|exact Hi'].
Qed.

(* ---- induction over trees ---- *)
Lemma nodes_conf k es n c : In (n, Some (VConf (Some c))) es -> nodes c < nodes (Conf k es).
Proof.
  intros H. cbn [nodes]. apply le_n_S. induction es as [|[m s] t IH]; [destruct H|].
  destruct H as [H|H].
  - injection H as -> ->. lia.
  - specialize (IH H). destruct s as [[| | | |[c'|]]|]; lia.
Qed.
Lemma conf_ind' (P : conf -> Prop) :
  (forall k es, (forall n c, In (n, Some (VConf (Some c))) es -> P c) -> P (Conf k es)) -> forall c, P c.
Proof.
  intros H c. remember (nodes c) as m eqn:E. revert c E.
  induction m as [m IH] using lt_wf_ind. intros [k es] ->. apply H.
  intros n c Hin. eapply IH; [|reflexivity]. eapply nodes_conf; eauto.
Qed.
Lemma bassoc_in c n v : bassoc (Some c) n = Some v -> In (n, Some v) (centries c).
Proof. destruct c as [k es]. destruct k; cbn; try discriminate; apply assoc_in. Qed.
