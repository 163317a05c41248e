(* Lemmas about writing a configuration and reading it back. *)
From Coq Require Import String Ascii List Bool Arith NArith ZArith Lia.
From Verif Require Import ConvertModel ConvertProofs ConvertProps ConfigModel ConfigProofs BackModel BackSpec BackProofs.
Import ListNotations.
Local Open Scope nat_scope.

Definition on_value {A B} (f : A -> B) (e : str * A) : str * B := (fst e, f (snd e)).
Lemma fold_and {A} (P : A -> Prop) (l : list A) : fold_right and True (map P l) <-> Forall P l.
Proof. induction l as [|x t IH]; cbn [map fold_right]; [split; auto|]. rewrite IH. split; [intros [? ?]; auto|]. intros H; inversion H; auto. Qed.

(* ---- emplace ---- *)
Lemma emplace_map {A B} (f : A -> B) o k v : forall l,
  emplace o k (f v) (map (on_value f) l) = map (on_value f) (emplace o k v l).
Proof.
  induction l as [|[k' v'] t IH]; [reflexivity|]. cbn [map on_value fst snd emplace].
  destruct o.
  - destruct (seqb k' k); [reflexivity|]. rewrite IH. reflexivity.
  - destruct (scmp k k'); [reflexivity..|]. rewrite IH. reflexivity.
Qed.
Lemma emplace_all_map {A B} (f : A -> B) o l : emplace_all o (map (on_value f) l) = map (on_value f) (emplace_all o l).
Proof.
  unfold emplace_all. change (@nil (str * B)) with (map (on_value f) []). generalize (@nil (str * A)) as acc.
  induction l as [|[k v] t IH]; intros acc; [reflexivity|]. cbn [map fold_left fst snd on_value].
  rewrite emplace_map. apply IH.
Qed.
Definition good_keys {V} (o : bool) (l : list (str * V)) : Prop :=
  if o then NoDup (map fst l) else ascending (map fst l).
Lemma ascending_cons a l : ascending (a :: l) <-> ascending l /\ Forall (fun b => scmp a b = Lt) l.
Proof.
  revert a. induction l as [|b t IH]; intros a.
  - cbn. split; auto.
  - change (ascending (a :: b :: t)) with (scmp a b = Lt /\ ascending (b :: t)). split.
    + intros [H A]. split; [exact A|]. constructor; [exact H|]. apply IH in A as [_ A]. eapply Forall_impl; [|exact A].
      intros c E. apply scmp_lt in H, E. apply scmp_lt. eapply slt_trans; eauto.
    + intros [A F]. inversion F; subst. auto.
Qed.
Lemma ascending_nodup l : ascending l -> NoDup l.
Proof.
  induction l as [|a t IH]; intros H; [constructor|]. apply ascending_cons in H as [A F]. constructor; [|auto].
  intros I. rewrite Forall_forall in F. specialize (F _ I). rewrite scmp_refl in F. discriminate.
Qed.
Lemma emplace_in {V} o k (v : V) x : forall l, In x (emplace o k v l) -> x = (k, v) \/ In x l.
Proof.
  induction l as [|[k' v'] t IH]; cbn [emplace In].
  - intros [H|[]]; auto.
  - destruct o.
    + destruct (seqb k' k); cbn [In]; [tauto|]. intros [H|H]; [auto|]. destruct (IH H); auto.
    + destruct (scmp k k'); cbn [In]; intros H; [tauto| |].
      * destruct H as [H|H]; auto.
      * destruct H as [H|H]; [auto|]. destruct (IH H); auto.
Qed.
Lemma emplace_keys {V} o k (v : V) l x : In x (map fst (emplace o k v l)) -> x = k \/ In x (map fst l).
Proof.
  intros H. apply in_map_iff in H as (e & <- & H). apply emplace_in in H as [->|H]; [auto|]. right. apply in_map. exact H.
Qed.
Lemma emplace_good {V} o k (v : V) : forall l, good_keys o l -> good_keys o (emplace o k v l).
Proof.
  induction l as [|[k' v'] t IH]; cbn [emplace].
  - intros _. destruct o; cbn; [|exact I]. constructor; [intros []|constructor].
  - destruct o; cbn [good_keys map fst] in *.
    + destruct (seqb k' k) eqn:E; [auto|]. intros H. inversion H; subst. cbn [map fst]. constructor; [|auto].
      intros J. apply emplace_keys in J as [J|J]; [|contradiction]. apply seqb_neq in E. congruence.
    + intros H. destruct (scmp k k') eqn:E; [exact H| |].
      * cbn [map fst]. change (scmp k k' = Lt /\ ascending (k' :: map fst t)). auto.
      * cbn [map fst]. apply ascending_cons in H as [A F]. apply ascending_cons. split; [auto|].
        rewrite Forall_forall in *. intros x Hx. apply emplace_keys in Hx as [->|Hx]; [|auto].
        rewrite scmp_anti, E. reflexivity.
Qed.
Lemma first_none {V} k (l : list (str * V)) : first k l = None <-> ~ In k (map fst l).
Proof.
  induction l as [|[k' v] t IH]; cbn [first map fst In]; [tauto|]. destruct (seqb k k') eqn:E.
  - apply seqb_spec in E. split; [discriminate|]. intros H. destruct H. auto.
  - apply seqb_neq in E. rewrite IH. intuition congruence.
Qed.
Lemma emplace_first {V} o k (v : V) x : forall l, good_keys o l ->
  first x (emplace o k v l) = match first x l with Some w => Some w | None => if seqb x k then Some v else None end.
Proof.
  induction l as [|[k' v'] t IH]; cbn [emplace first]; [reflexivity|]. intros G.
  destruct o; cbn [good_keys map fst] in G.
  - inversion G as [|? ? N D]; subst. destruct (seqb k' k) eqn:E; cbn [first].
    + apply seqb_spec in E as ->. destruct (seqb x k) eqn:F; [reflexivity|]. destruct (first x t); reflexivity.
    + destruct (seqb x k') eqn:F; [reflexivity|]. apply IH. exact D.
  - apply ascending_cons in G as [A F]. destruct (scmp k k') eqn:E; cbn [first].
    + apply scmp_eq in E as <-. destruct (seqb x k) eqn:Fx; [reflexivity|]. destruct (first x t); reflexivity.
    + destruct (seqb x k') eqn:Fx; [apply seqb_spec in Fx as ->|].
      * destruct (seqb k' k) eqn:Q; [|reflexivity]. apply seqb_spec in Q as ->. rewrite scmp_refl in E. discriminate.
      * destruct (seqb x k) eqn:Q; [|destruct (first x t); reflexivity]. apply seqb_spec in Q as ->.
        replace (first k t) with (@None V); [reflexivity|]. symmetry. apply first_none. intros I.
        rewrite Forall_forall in F. specialize (F _ I). apply scmp_lt in E, F.
        apply (slt_irrefl k). eapply slt_trans; eauto.
    + destruct (seqb x k') eqn:Fx; [reflexivity|]. apply IH. exact A.
Qed.
Lemma first_app {V} x (a b : list (str * V)) : first x (a ++ b) = match first x a with Some w => Some w | None => first x b end.
Proof. induction a as [|[k v] t IH]; cbn [app first]; [reflexivity|]. destruct (seqb x k); auto. Qed.
Lemma emplace_all_good {V} o (l : list (str * V)) :
  good_keys o (emplace_all o l) /\ (forall x, first x (emplace_all o l) = first x l) /\
  (forall e, In e (emplace_all o l) -> In e l).
Proof.
  unfold emplace_all. induction l as [|[k v] t IH] using rev_ind.
  - split; [destruct o; cbn; [constructor|exact I]|]. split; auto.
  - rewrite fold_left_app. cbn [fold_left fst snd]. destruct IH as (G & F & I). split; [apply emplace_good; exact G|].
    split.
    + intros x. rewrite emplace_first by exact G. rewrite F, first_app. cbn [first]. destruct (first x t); reflexivity.
    + intros e H. apply in_app_iff. apply emplace_in in H as [->|H]; [right; left; reflexivity|auto].
Qed.
Lemma emplace_true_new {V} k (v : V) : forall l, ~ In k (map fst l) -> emplace true k v l = l ++ [(k, v)].
Proof.
  induction l as [|[k' v'] t IH]; intros N; [reflexivity|]. cbn [emplace map fst In app] in *.
  destruct (seqb k' k) eqn:E; [apply seqb_spec in E; tauto|]. rewrite IH by tauto. reflexivity.
Qed.
Lemma emplace_all_unique {V} (l : list (str * V)) : NoDup (map fst l) -> emplace_all true l = l.
Proof.
  unfold emplace_all. induction l as [|[k v] t IH] using rev_ind; [reflexivity|]. intros N.
  rewrite map_app in N. cbn [map fst] in N. apply NoDup_remove in N as [D N]. rewrite app_nil_r in *.
  rewrite fold_left_app, IH by exact D. cbn [fold_left fst snd]. apply emplace_true_new. exact N.
Qed.

(* ---- the tree of a written document ---- *)
Fixpoint norm (o : bool) (t : tree) : tree :=
  match t with
  | TNode true es => TNode true (emplace_all o (map (fun e => match e with (k, v) => (k, norm o v) end) es))
  | TNode false es => TNode false (map (fun e => match e with (k, v) => (k, norm o v) end) es)
  | _ => t
  end.
Lemma on_value_eq {A B} (f : A -> B) (l : list (str * A)) :
  map (fun e => match e with (k, v) => (k, f v) end) l = map (on_value f) l.
Proof. apply map_ext. intros [k v]. reflexivity. Qed.

Definition slot_tree (s : slot) : tree :=
  match s with
  | None => TNone
  | Some (VInt z) => TInt z
  | Some (VReal b) => TReal b
  | Some (VBool b) => TBool b
  | Some (VStr s) => TStr s
  | Some (VConf (Some c)) => conf_tree c
  | Some (VConf None) => TNone
  end.
Lemma conf_tree_eq k es :
  conf_tree (Conf k es) = TNode (is_assoc k) (map (fun e => (if is_assoc k then fst e else [], slot_tree (snd e))) es).
Proof. cbn [conf_tree]. f_equal. apply map_ext. intros [key s]. reflexivity. Qed.
Definition slot_json (o : bool) (s : slot) : json :=
  match s with
  | None => JNull
  | Some (VInt z) => JInt z
  | Some (VReal b) => JFloat b
  | Some (VBool b) => JBool b
  | Some (VStr s) => JStr s
  | Some (VConf (Some c)) => to_json o c
  | Some (VConf None) => JNull
  end.
Lemma to_json_eq o k es :
  to_json o (Conf k es) = if is_assoc k then make_object o (map (on_value (slot_json o)) es) else JArr (map (fun e => slot_json o (snd e)) es).
Proof.
  cbn [to_json]. destruct (is_assoc k).
  - f_equal. apply map_ext. intros [key s]. reflexivity.
  - f_equal. rewrite map_map. apply map_ext. intros [key s]. reflexivity.
Qed.
Lemma to_json_tree o : forall c, json_tree (to_json o c) = norm o (conf_tree c).
Proof.
  induction c as [k es IH] using conf_ind'. rewrite to_json_eq, conf_tree_eq.
  assert (P : forall e, In e es -> json_tree (slot_json o (snd e)) = norm o (slot_tree (snd e))).
  { intros [key s] H. cbn [snd]. destruct s as [[z|b|b|s|[c|]]|]; try reflexivity. apply (IH key). exact H. }
  destruct (is_assoc k) eqn:A.
  - cbn [make_object json_tree norm]. f_equal. rewrite !on_value_eq. rewrite <- emplace_all_map. f_equal.
    rewrite !map_map. apply map_ext_in. intros e H. unfold on_value. cbn [fst snd]. rewrite P by exact H. reflexivity.
  - cbn [json_tree norm]. f_equal. rewrite on_value_eq, !map_map. apply map_ext_in. intros e H.
    unfold on_value. cbn [fst snd]. rewrite P by exact H. reflexivity.
Qed.

Lemma opt_all_map {A B C} (f : A -> option B) (g : B -> C) (h : A -> C) l :
  Forall (fun a => exists b, f a = Some b /\ g b = h a) l ->
  exists bs, opt_all (map f l) = Some bs /\ map g bs = map h l.
Proof.
  induction 1 as [|a t (b & E & G) F (bs & E' & G')].
  - exists []. auto.
  - exists (b :: bs). cbn [map opt_all]. rewrite E, E', G, G'. auto.
Qed.
Lemma wrap64_id z : int64 z -> (z <? 0)%Z = false -> wrap64 (Z.to_N z) = z.
Proof.
  unfold int64, wrap64. intros H E. apply Z.ltb_ge in E. rewrite Z2N.id by lia.
  rewrite Z.mod_small by lia. lia.
Qed.
Definition json_ok (utf8 : str -> bool) : tree -> Prop := every (json_scalar utf8) (fun k => utf8 k = true).
Lemma every_node sc ky a es : every sc ky (TNode a es) <->
  (a = true -> Forall ky (map fst es)) /\ Forall (fun e => every sc ky (snd e)) es.
Proof.
  cbn [every]. rewrite <- (fold_and (fun e => every sc ky (snd e))).
  erewrite (map_ext (fun e : str * tree => let (_, v) := e in every sc ky v)); [reflexivity|]. intros [k v]. reflexivity.
Qed.
Lemma reparse_json_tree utf8 o : forall j, json_ok utf8 (json_tree j) ->
  exists j', reparse_json utf8 o j = Some j' /\ json_tree j' = norm o (json_tree j).
Proof.
  induction j as [j H|l IH|l IH] using json_ind'; intros OK.
  - destruct j as [|z|n|b|s|b|l|l]; try contradiction; cbn [reparse_json json_tree norm]; cbn [json_tree json_ok every json_scalar] in OK.
    + eauto.
    + eexists. split; [reflexivity|]. destruct (z <? 0)%Z eqn:E; cbn [json_tree]; [reflexivity|].
      rewrite wrap64_id by assumption. reflexivity.
    + eauto.
    + eexists. split; [reflexivity|]. rewrite OK. reflexivity.
    + rewrite OK. cbn [guard]. eauto.
    + eauto.
  - cbn [json_tree json_ok] in OK. apply every_node in OK as [_ OK]. rewrite Forall_map in OK. cbn [snd] in OK.
    destruct (opt_all_map (reparse_json utf8 o) json_tree (fun j => norm o (json_tree j)) l) as (bs & E & G).
    { rewrite Forall_forall in *. intros x Hx. apply IH; [exact Hx|]. exact (OK x Hx). }
    exists (JArr bs). cbn [reparse_json]. rewrite E. split; [reflexivity|]. cbn [json_tree norm]. f_equal.
    rewrite on_value_eq, map_map. change (map (fun x => ([] : str, json_tree x)) bs) with (map (fun x => ([] : str, json_tree x)) bs).
    rewrite <- (map_map json_tree (fun t => ([] : str, t))), G, map_map. reflexivity.
  - cbn [json_tree json_ok] in OK. apply every_node in OK as [KO OK]. specialize (KO eq_refl).
    rewrite map_map in KO. rewrite Forall_map in KO, OK.
    destruct (opt_all_map (fun e => match e with (k, v) => guard (utf8 k) (option_map (pair k) (reparse_json utf8 o v)) end)
                (on_value json_tree) (fun e => on_value (fun v => norm o (json_tree v)) e) l) as (bs & E & G).
    { rewrite Forall_forall in *. intros [k x] Hx. specialize (KO _ Hx). specialize (OK _ Hx). cbn [fst snd] in *.
      destruct (IH _ Hx OK) as (j' & E & G). cbn [snd] in *. exists (k, j'). rewrite KO, E. cbn [guard option_map].
      split; [reflexivity|]. unfold on_value. cbn [fst snd]. rewrite G. reflexivity. }
    exists (make_object o bs). cbn [reparse_json]. rewrite E. split; [reflexivity|]. cbn [make_object json_tree norm].
    f_equal. rewrite !on_value_eq. rewrite <- emplace_all_map, G. f_equal. rewrite map_map. apply map_ext. intros [k v]. reflexivity.
Qed.

Lemma norm_every o sc ky : forall t, every sc ky t -> every sc ky (norm o t).
Proof.
  induction t as [t H|a es IH] using tree_ind'; [destruct t; try contradiction; auto|].
  intros E. apply every_node in E as [K E]. rewrite Forall_forall in *.
  assert (Q : forall e, In e (map (on_value (norm o)) es) -> every sc ky (snd e) /\ In (fst e) (map fst es)).
  { intros e H. apply in_map_iff in H as ([k v] & <- & H). cbn [on_value fst snd]. split.
    - apply (IH (k, v)); [exact H|]. apply (E (k, v)). exact H.
    - apply (in_map fst _ (k, v)). exact H. }
  destruct a; cbn [norm]; rewrite on_value_eq; apply every_node; split.
  - intros _. rewrite Forall_forall. intros k H. apply in_map_iff in H as (e & <- & H).
    apply (emplace_all_good o) in H. destruct (Q _ H) as [_ I]. apply (K eq_refl). exact I.
  - rewrite Forall_forall. intros e H. apply (emplace_all_good o) in H. apply (Q _ H).
  - discriminate.
  - rewrite Forall_forall. intros e H. apply (Q _ H).
Qed.

Lemma unique_node a es : unique_keys (TNode a es) <-> (a = true -> NoDup (map fst es)) /\ Forall (fun e => unique_keys (snd e)) es.
Proof.
  cbn [unique_keys]. rewrite <- (fold_and (fun e => unique_keys (snd e))).
  erewrite (map_ext (fun e : str * tree => let (_, v) := e in unique_keys v)); [reflexivity|]. intros [k v]. reflexivity.
Qed.
Lemma sorted_node a es : sorted_keys (TNode a es) <-> (a = true -> ascending (map fst es)) /\ Forall (fun e => sorted_keys (snd e)) es.
Proof.
  cbn [sorted_keys]. rewrite <- (fold_and (fun e => sorted_keys (snd e))).
  erewrite (map_ext (fun e : str * tree => let (_, v) := e in sorted_keys v)); [reflexivity|]. intros [k v]. reflexivity.
Qed.
Lemma norm_unique o : forall t, unique_keys (norm o t).
Proof.
  induction t as [t H|a es IH] using tree_ind'; [destruct t; try contradiction; exact I|].
  rewrite Forall_forall in IH. destruct a; cbn [norm]; rewrite on_value_eq; apply unique_node; split.
  - intros _. destruct (emplace_all_good o (map (on_value (norm o)) es)) as (G & _ & _).
    destruct o; [exact G|]. apply ascending_nodup. exact G.
  - rewrite Forall_forall. intros e H. apply (emplace_all_good o) in H. apply in_map_iff in H as (e' & <- & H). cbn [on_value snd]. auto.
  - discriminate.
  - rewrite Forall_forall. intros e H. apply in_map_iff in H as (e' & <- & H). cbn [on_value snd]. auto.
Qed.
Lemma norm_sorted : forall t, sorted_keys (norm false t).
Proof.
  induction t as [t H|a es IH] using tree_ind'; [destruct t; try contradiction; exact I|].
  rewrite Forall_forall in IH. destruct a; cbn [norm]; rewrite on_value_eq; apply sorted_node; split.
  - intros _. apply (emplace_all_good false).
  - rewrite Forall_forall. intros e H. apply (emplace_all_good false) in H. apply in_map_iff in H as (e' & <- & H). cbn [on_value snd]. auto.
  - discriminate.
  - rewrite Forall_forall. intros e H. apply in_map_iff in H as (e' & <- & H). cbn [on_value snd]. auto.
Qed.
Lemma norm_id : forall t, unique_keys t -> norm true t = t.
Proof.
  induction t as [t H|a es IH] using tree_ind'; [destruct t; try contradiction; reflexivity|].
  intros U. apply unique_node in U as [N U]. rewrite Forall_forall in IH, U.
  assert (E : map (on_value (norm true)) es = es).
  { rewrite <- (map_id es) at 2. apply map_ext_in. intros [k v] H. unfold on_value. cbn [fst snd]. f_equal. apply (IH (k, v)); auto. }
  destruct a; cbn [norm]; rewrite on_value_eq, E; [|reflexivity]. f_equal. apply emplace_all_unique. auto.
Qed.
Lemma first_map {A B} (f : A -> B) k l : first k (map (on_value f) l) = option_map f (first k l).
Proof. induction l as [|[k' v] t IH]; [reflexivity|]. cbn [map on_value fst snd first]. destruct (seqb k k'); auto. Qed.
Lemma norm_shape o t : shape (norm o t) = shape t.
Proof. destruct t as [| | | | |[|] es]; try reflexivity. cbn [norm shape]. rewrite map_length. reflexivity. Qed.
Lemma norm_lookup o : forall p t, lookup false p (norm o t) = option_map (norm o) (lookup false p t).
Proof.
  induction p as [|[k|i] p IH]; intros t; [reflexivity| |].
  - destruct t as [| | | | |[|] es]; try reflexivity. cbn [norm lookup]. rewrite on_value_eq.
    destruct (emplace_all_good o (map (on_value (norm o)) es)) as (_ & F & _). rewrite F, first_map.
    destruct (first k es); cbn [option_map]; [apply IH|reflexivity].
  - destruct t as [| | | | |[|] es]; try reflexivity. cbn [norm lookup]. rewrite on_value_eq, nth_error_map.
    destruct (nth_error es i) as [[k v]|]; cbn [option_map on_value fst snd]; [apply IH|reflexivity].
Qed.
Lemma norm_lookup_shape o p t : option_map shape (lookup false p (norm o t)) = option_map shape (lookup false p t).
Proof. rewrite norm_lookup. destruct (lookup false p t); cbn [option_map]; [rewrite norm_shape|]; reflexivity. Qed.

Lemma json_trip utf8 ow o c : json_ok utf8 (conf_tree c) ->
  exists j ow', reparse_json utf8 o (json_write ow (Some c)) = Some j /\ json_tree j = norm o (norm ow' (conf_tree c)) /\
    (ow = Some true \/ (ow = None /\ ckind c = KOrdered) -> ow' = true).
Proof.
  intros OK. cbn [json_write].
  set (ow' := match ow with Some o => o | None => is_assoc (ckind c) && is_ordered (ckind c) end).
  destruct (reparse_json_tree utf8 o (to_json ow' c)) as (j & E & T).
  { rewrite to_json_tree. apply norm_every. exact OK. }
  exists j, ow'. rewrite to_json_tree in T. repeat split; auto. unfold ow'. intros [->|[-> ->]]; reflexivity.
Qed.

(* ---- xml ---- *)
Lemma c_str_id s : ~ In "000"%char s -> c_str s = s.
Proof.
  induction s as [|c t IH]; [reflexivity|]. cbn [In c_str]. intros N.
  destruct (Ascii.eqb_spec c nul) as [E|_]; [exfalso; apply N; left; rewrite E; reflexivity|]. f_equal. auto.
Qed.
Lemma newlines_id s : ~ In "013"%char s -> newlines s = s.
Proof.
  induction s as [|c t IH]; [reflexivity|]. cbn [In newlines]. intros N.
  destruct (Ascii.eqb_spec c "013") as [E|_]; [exfalso; auto|].
  destruct (Ascii.eqb_spec c "010") as [E|_].
  - subst c. destruct t as [|d u]; [reflexivity|].
    destruct (Ascii.eqb_spec d "013") as [E|_]; [exfalso; apply N; right; left; exact E|]. f_equal. apply IH. tauto.
  - f_equal. apply IH. tauto.
Qed.
Lemma uint_chars u : Forall (fun c => is_space c = false /\ c <> "000"%char /\ c <> "013"%char) (chars (DecimalString.NilEmpty.string_of_uint u)).
Proof.
  induction u; cbn; constructor; try assumption; (split; [reflexivity|split; discriminate]).
Qed.
Lemma int_text_plain z : xml_plain (int_to_string z) /\ forallb is_space (int_to_string z) = false.
Proof.
  assert (F : Forall (fun c => is_space c = false /\ c <> "000"%char /\ c <> "013"%char) (int_to_string z)).
  { unfold int_to_string. destruct (z <? 0)%Z; [constructor|]; try apply uint_chars. split; [reflexivity|split; discriminate]. }
  split.
  - rewrite Forall_forall in F. split; intros H; destruct (F _ H) as (_ & A & B); congruence.
  - pose proof (proj1 (literal_head _ _ (int_literal z))) as N.
    destruct (int_to_string z) as [|c t]; [congruence|]. inversion F as [|? ? (A & _)]; subst. cbn [forallb]. rewrite A. reflexivity.
Qed.

Definition slot_xml (rt : N -> str) (tv : bool) (name : str) (s : slot) : xml :=
  match s with
  | None => Elem name None None []
  | Some (VInt z) => xml_scalar tv name (int_to_string z)
  | Some (VReal b) => xml_scalar tv name (rt b)
  | Some (VBool b) => xml_scalar tv name (bool_text b)
  | Some (VStr s) => xml_scalar tv name (c_str s)
  | Some (VConf (Some c)) => Elem name None None (to_xml rt tv c)
  | Some (VConf None) => Elem name None None []
  end.
Lemma to_xml_eq rt tv k es :
  to_xml rt tv (Conf k es) = map (fun e => slot_xml rt tv (xml_key (is_assoc k) (fst e)) (snd e)) es.
Proof. cbn [to_xml]. apply map_ext. intros [key s]. reflexivity. Qed.
Lemma xml_scalar_trip nm tv name s : nm name = true -> xml_plain s ->
  exists x, reparse_xml nm (xml_scalar tv name s) = Some x /\ x_name x = name /\
            xml_tree x = if tv && forallb is_space s then TNode true [] else TStr s.
Proof.
  intros N [_ P]. unfold xml_scalar. destruct tv; cbn [reparse_xml opt_all map option_map kept_text andb]; rewrite N; cbn [guard].
  - destruct (forallb is_space s); eexists; (split; [reflexivity|]); (split; [reflexivity|]); cbn [xml_tree]; [reflexivity|].
    rewrite newlines_id by exact P. reflexivity.
  - eexists; (split; [reflexivity|]); (split; [reflexivity|]). cbn [xml_tree]. rewrite newlines_id by exact P. reflexivity.
Qed.
Definition xml_key_ok (nm : str -> bool) (k : str) : Prop := nm k = true /\ ~ In "000"%char k.
Definition xml_ok (rt : N -> str) (nm : str -> bool) : tree -> Prop := every (xml_scalar_ok rt) (xml_key_ok nm).
Lemma every_conf sc ky k es : every sc ky (conf_tree (Conf k es)) ->
  (is_assoc k = true -> forall e, In e es -> ky (fst e)) /\ forall e, In e es -> every sc ky (slot_tree (snd e)).
Proof.
  rewrite conf_tree_eq. intros E. apply every_node in E as [K E]. rewrite Forall_map in E. rewrite Forall_forall in E. split.
  - intros A e H. specialize (K A). rewrite map_map, Forall_map, Forall_forall in K. specialize (K e H). cbn [fst] in K.
    rewrite A in K. exact K.
  - exact E.
Qed.
Lemma bool_text_plain b : xml_plain (bool_text b) /\ forallb is_space (bool_text b) = false.
Proof. destruct b; (split; [split; cbn; intuition discriminate|reflexivity]). Qed.
Lemma to_xml_trip rt nm tv : nm (chars "i") = true -> forall c, xml_ok rt nm (conf_tree c) ->
  exists l, opt_all (map (reparse_xml nm) (to_xml rt tv c)) = Some l /\
            TNode true (map (fun x => (x_name x, xml_tree x)) l) = xml_view rt tv (conf_tree c).
Proof.
  intros NI. induction c as [k es IH] using conf_ind'. intros OK.
  destruct (every_conf _ _ _ _ OK) as [KO SO]. rewrite to_xml_eq, conf_tree_eq, map_map.
  destruct (opt_all_map (fun e => reparse_xml nm (slot_xml rt tv (xml_key (is_assoc k) (fst e)) (snd e)))
              (fun x => (x_name x, xml_tree x))
              (fun e => (if is_assoc k then fst e else chars "i", xml_view rt tv (slot_tree (snd e)))) es) as (l & E & G).
  { apply Forall_forall. intros [key s] H. cbn [fst snd]. specialize (SO _ H). cbn [snd] in SO.
    assert (KN : nm (xml_key (is_assoc k) key) = true /\ xml_key (is_assoc k) key = if is_assoc k then key else chars "i").
    { unfold xml_key. destruct (is_assoc k); [|auto]. destruct (KO eq_refl _ H) as [A B]. cbn [fst] in A, B. rewrite c_str_id by exact B. auto. }
    destruct KN as [KN KE].
    assert (SC : forall s', xml_plain s' -> exists b, reparse_xml nm (xml_scalar tv (xml_key (is_assoc k) key) s') = Some b /\
        (x_name b, xml_tree b) = (if is_assoc k then key else chars "i", if tv && forallb is_space s' then TNode true [] else TStr s')).
    { intros s' P. destruct (xml_scalar_trip nm tv _ s' KN P) as (x & E & N & T). exists x. split; [exact E|]. rewrite N, T, KE. reflexivity. }
    assert (EMP : exists b, reparse_xml nm (Elem (xml_key (is_assoc k) key) None None []) = Some b /\
        (x_name b, xml_tree b) = (if is_assoc k then key else chars "i", TNode true [])).
    { cbn [reparse_xml map opt_all option_map kept_text]. rewrite KN. cbn [guard]. eexists. split; [reflexivity|].
      cbn [x_name xml_tree]. rewrite KE. reflexivity. }
    destruct s as [[z|b|b|s|[c|]]|]; cbn [slot_xml slot_tree xml_view]; try exact EMP.
    - destruct (int_text_plain z) as [P Q]. specialize (SC _ P). rewrite Q, andb_false_r in SC. exact SC.
    - destruct SO as [P Q]. specialize (SC _ P). rewrite Q, andb_false_r in SC. exact SC.
    - destruct (bool_text_plain b) as [P Q]. specialize (SC _ P). rewrite Q, andb_false_r in SC. exact SC.
    - cbn [slot_tree every xml_scalar_ok] in SO. rewrite c_str_id by apply SO. exact (SC _ SO).
    - cbn [slot_tree] in SO. destruct (IH key c H SO) as (l & E & T). exists (Elem (xml_key (is_assoc k) key) None None l).
      cbn [reparse_xml option_map kept_text]. rewrite KN, E. cbn [guard option_map x_name]. split; [reflexivity|].
      rewrite KE. f_equal. rewrite <- T. destruct l; reflexivity. }
  exists l. split; [exact E|]. rewrite G. cbn [xml_view]. f_equal. rewrite map_map. apply map_ext. intros [key s]. cbn [fst snd].
  destruct (is_assoc k); reflexivity.
Qed.
Lemma xml_trip rt nm tv root c : nm (chars "i") = true -> xml_key_ok nm root -> xml_ok rt nm (conf_tree c) ->
  exists x, reparse_xml nm (xml_write rt tv root (Some c)) = Some x /\ xml_root_tree x = xml_view rt tv (conf_tree c).
Proof.
  intros NI [NR ZR] OK. destruct (to_xml_trip rt nm tv NI c OK) as (l & E & T). cbn [xml_write reparse_xml option_map kept_text].
  rewrite c_str_id by exact ZR. rewrite NR, E. cbn [guard option_map]. eexists. split; [reflexivity|]. exact T.
Qed.
Lemma bool_text_read b : bool_of_string (bool_text b) = Some b.
Proof. destruct b; reflexivity. Qed.

(* ---- yaml ---- *)
Fixpoint assign {V} (k : str) (v : V) (l : list (str * V)) : list (str * V) :=
  match l with
  | [] => [(k, v)]
  | (k', v') :: t => if seqb k' k then (k', v) :: t else (k', v') :: assign k v t
  end.
Definition assign_all {V} (l : list (str * V)) : list (str * V) := fold_left (fun acc e => assign (fst e) (snd e) acc) l [].
Definition yentry (e : yaml * yaml) : str * tree := (scalar (fst e), yaml_tree (snd e)).
Lemma yaml_assign_tree k v : forall l, map yentry (yaml_assign k v l) = assign k (yaml_tree v) (map yentry l).
Proof.
  induction l as [|[k' v'] t IH]; [reflexivity|]. cbn [yaml_assign map yentry fst snd assign].
  destruct (seqb (scalar k') k); [reflexivity|]. cbn [map]. rewrite IH. reflexivity.
Qed.
Definition slot_yaml (rt : N -> str) (s : slot) : yaml :=
  match s with
  | None => YNull
  | Some (VInt z) => YScalar (int_to_string z)
  | Some (VReal b) => YScalar (rt b)
  | Some (VBool b) => YScalar (bool_text b)
  | Some (VStr s) => YScalar s
  | Some (VConf (Some c)) => to_yaml rt c
  | Some (VConf None) => YNull
  end.
Lemma to_yaml_eq rt k es :
  to_yaml rt (Conf k es) =
    if is_assoc k then YMap (fold_left (fun acc e => yaml_assign (fst e) (snd e) acc) (map (on_value (slot_yaml rt)) es) [])
    else YSeq (map (fun e => slot_yaml rt (snd e)) es).
Proof.
  cbn [to_yaml]. destruct (is_assoc k).
  - f_equal. f_equal. apply map_ext. intros [key s]. reflexivity.
  - f_equal. rewrite map_map. apply map_ext. intros [key s]. reflexivity.
Qed.
(* the tree of what is written *)
Fixpoint ynorm (t : tree) : tree :=
  match t with
  | TNode true es => TNode true (assign_all (map (fun e => match e with (k, v) => (k, ynorm v) end) es))
  | TNode false es => TNode false (map (fun e => match e with (k, v) => (k, ynorm v) end) es)
  | _ => t
  end.
Lemma to_yaml_tree rt : forall c, yaml_tree (to_yaml rt c) = ynorm (yaml_view rt (conf_tree c)).
Proof.
  induction c as [k es IH] using conf_ind'. rewrite to_yaml_eq, conf_tree_eq.
  assert (P : forall e, In e es -> yaml_tree (slot_yaml rt (snd e)) = ynorm (yaml_view rt (slot_tree (snd e)))).
  { intros [key s] H. cbn [snd]. destruct s as [[z|b|b|s|[c|]]|]; try reflexivity. apply (IH key). exact H. }
  cbn [yaml_view]. rewrite on_value_eq, map_map. destruct (is_assoc k) eqn:A.
  - cbn [yaml_tree ynorm]. f_equal. rewrite on_value_eq, map_map.
    transitivity (map yentry (fold_left (fun acc e => yaml_assign (fst e) (snd e) acc) (map (on_value (slot_yaml rt)) es) [])).
    { apply map_ext. intros [a b]. reflexivity. }
    unfold assign_all. change (@nil (str * tree)) with (map yentry []). generalize (@nil (yaml * yaml)) as acc.
    clear A IH. induction es as [|[key s] t IHes]; intros acc; [reflexivity|]. cbn [map fold_left fst snd on_value].
    rewrite IHes by (intros e H; apply P; right; exact H). rewrite yaml_assign_tree. f_equal. f_equal.
    exact (P (key, s) (or_introl eq_refl)).
  - cbn [yaml_tree ynorm]. f_equal. rewrite on_value_eq, !map_map. apply map_ext_in. intros e H.
    unfold on_value. cbn [fst snd]. rewrite P by exact H. reflexivity.
Qed.
Lemma assign_keys {V} k (v : V) : forall l, NoDup (map fst l) -> NoDup (map fst (assign k v l)) /\ (forall x, In x (map fst (assign k v l)) <-> x = k \/ In x (map fst l)).
Proof.
  induction l as [|[k' v'] t IH]; cbn [assign map fst In].
  - intros _. split; [constructor; [intros []|constructor]|]. intuition.
  - intros N. inversion N as [|? ? H D]; subst. destruct (IH D) as [A B]. destruct (seqb k' k) eqn:E; cbn [map fst In].
    + apply seqb_spec in E as ->. split; [exact N|]. intuition.
    + apply seqb_neq in E. split.
      * constructor; [|exact A]. intros J. apply B in J as [J|J]; [congruence|contradiction].
      * intros x. rewrite B. intuition.
Qed.
Lemma assign_first {V} k (v : V) x : forall l, first x (assign k v l) = if seqb x k then Some v else first x l.
Proof.
  induction l as [|[k' v'] t IH]; cbn [assign first]; [reflexivity|]. destruct (seqb k' k) eqn:E; cbn [first].
  - apply seqb_spec in E as ->. destruct (seqb x k); reflexivity.
  - rewrite IH. destruct (seqb x k') eqn:F; [|reflexivity]. apply seqb_spec in F as ->. rewrite E. reflexivity.
Qed.
Lemma first_unique {V} x (l : list (str * V)) : NoDup (map fst l) -> last_ x l = first x l.
Proof.
  unfold last_. induction l as [|[k v] t IH]; intros N; [reflexivity|]. cbn [rev]. inversion N as [|? ? H D]; subst.
  rewrite first_app, IH by exact D. cbn [first]. destruct (seqb x k) eqn:E.
  - apply seqb_spec in E as ->. replace (first k t) with (@None V); [reflexivity|]. symmetry. apply first_none. exact H.
  - destruct (first x t); reflexivity.
Qed.
Lemma assign_all_last {V} (l : list (str * V)) :
  NoDup (map fst (assign_all l)) /\ (forall x, last_ x (assign_all l) = last_ x l).
Proof.
  assert (Q : NoDup (map fst (assign_all l)) /\ (forall x, first x (assign_all l) = last_ x l)).
  { unfold assign_all, last_. induction l as [|[k v] t IH] using rev_ind.
    - split; [constructor|reflexivity].
    - rewrite fold_left_app. cbn [fold_left fst snd]. destruct IH as [N F]. split; [apply assign_keys; exact N|].
      intros x. rewrite assign_first, F, rev_app_distr. cbn [rev app first]. reflexivity. }
  destruct Q as [N F]. split; [exact N|]. intros x. rewrite first_unique by exact N. apply F.
Qed.
Lemma assign_new {V} k (v : V) : forall l, ~ In k (map fst l) -> assign k v l = l ++ [(k, v)].
Proof.
  induction l as [|[k' v'] t IH]; intros N; [reflexivity|]. cbn [assign map fst In app] in *.
  destruct (seqb k' k) eqn:E; [apply seqb_spec in E; tauto|]. rewrite IH by tauto. reflexivity.
Qed.
Lemma assign_all_unique {V} (l : list (str * V)) : NoDup (map fst l) -> assign_all l = l.
Proof.
  unfold assign_all. induction l as [|[k v] t IH] using rev_ind; [reflexivity|]. intros N.
  rewrite map_app in N. cbn [map fst] in N. apply NoDup_remove in N as [D N]. rewrite app_nil_r in *.
  rewrite fold_left_app, IH by exact D. cbn [fold_left fst snd]. apply assign_new. exact N.
Qed.
Lemma ynorm_id : forall t, unique_keys t -> ynorm t = t.
Proof.
  induction t as [t H|a es IH] using tree_ind'; [destruct t; try contradiction; reflexivity|].
  intros U. apply unique_node in U as [N U]. rewrite Forall_forall in IH, U.
  assert (E : map (on_value ynorm) es = es).
  { rewrite <- (map_id es) at 2. apply map_ext_in. intros [k v] H. unfold on_value. cbn [fst snd]. f_equal. apply (IH (k, v)); auto. }
  destruct a; cbn [ynorm]; rewrite on_value_eq, E; [|reflexivity]. f_equal. apply assign_all_unique. auto.
Qed.
Lemma on_value_keys {A B} (f : A -> B) l : map fst (map (on_value f) l) = map fst l.
Proof. rewrite map_map. reflexivity. Qed.
Lemma yaml_view_unique rt : forall t, unique_keys t -> unique_keys (yaml_view rt t).
Proof.
  induction t as [t H|a es IH] using tree_ind'; [destruct t; try contradiction; cbn; auto; repeat constructor|].
  intros U. apply unique_node in U as [N U]. cbn [yaml_view]. rewrite on_value_eq. apply unique_node.
  rewrite on_value_keys. split; [exact N|]. rewrite Forall_map, Forall_forall in *. intros e H. cbn [on_value snd]. auto.
Qed.
Lemma last_map {A B} (f : A -> B) k l : last_ k (map (on_value f) l) = option_map f (last_ k l).
Proof. unfold last_. rewrite <- map_rev. apply first_map. Qed.
Lemma ynorm_lookup : forall p t, lookup true p (ynorm t) = option_map ynorm (lookup true p t).
Proof.
  induction p as [|[k|i] p IH]; intros t; [reflexivity| |].
  - destruct t as [| | | | |[|] es]; try reflexivity. cbn [ynorm lookup]. rewrite on_value_eq.
    rewrite (proj2 (assign_all_last _)), last_map. destruct (last_ k es); cbn [option_map]; [apply IH|reflexivity].
  - destruct t as [| | | | |[|] es]; try reflexivity. cbn [ynorm lookup]. rewrite on_value_eq, nth_error_map.
    destruct (nth_error es i) as [[k v]|]; cbn [option_map on_value fst snd]; [apply IH|reflexivity].
Qed.
Lemma ynorm_shape t : shape (ynorm t) = shape t.
Proof. destruct t as [| | | | |[|] es]; try reflexivity. cbn [ynorm shape]. rewrite map_length. reflexivity. Qed.
Lemma yaml_view_lookup rt l : forall p t, p = [] \/ lookup l p t <> None ->
  lookup l p (yaml_view rt t) = option_map (yaml_view rt) (lookup l p t).
Proof.
  induction p as [|[k|i] p IH]; intros t [X|NN]; try discriminate; try reflexivity.
  - destruct t as [| | | | |[|] es]; cbn [lookup] in NN; try congruence. cbn [yaml_view lookup]. rewrite on_value_eq.
    rewrite last_map, first_map. destruct l.
    + destruct (last_ k es) as [t|]; [|congruence]. cbn [option_map]. apply IH. auto.
    + destruct (first k es) as [t|]; [|congruence]. cbn [option_map]. apply IH. auto.
  - destruct t as [| | | | |[|] es]; cbn [lookup] in NN; try congruence. cbn [yaml_view lookup]. rewrite on_value_eq, nth_error_map.
    destruct (nth_error es i) as [[k v]|]; [|congruence]. cbn [option_map on_value fst snd]. apply IH. auto.
Qed.

(* ---- ini ---- *)
Lemma not_descending_cons a l : not_descending (a :: l) <-> not_descending l /\ Forall (fun b => scmp a b <> Gt) l.
Proof.
  revert a. induction l as [|b t IH]; intros a.
  - cbn. split; auto.
  - change (not_descending (a :: b :: t)) with (scmp a b <> Gt /\ not_descending (b :: t)). split.
    + intros [H A]. split; [exact A|]. constructor; [exact H|]. apply IH in A as [_ A]. eapply Forall_impl; [|exact A].
      intros c E G. apply scmp_gt in G. destruct (scmp a b) eqn:AB; [apply scmp_eq in AB as <-|apply scmp_lt in AB|congruence].
      * apply E. apply scmp_gt. exact G.
      * apply E. apply scmp_gt. eapply slt_trans; eauto.
    + intros [A F]. inversion F; subst. auto.
Qed.
Lemma values_of_cons x k v l : values_of x ((k, v) :: l) = (if seqb x k then [v] else []) ++ values_of x l.
Proof. unfold values_of. cbn [filter fst]. destruct (seqb x k); reflexivity. Qed.
Lemma values_of_none x l : ~ In x (map fst l) -> values_of x l = [].
Proof.
  induction l as [|[k v] t IH]; cbn [map fst In]; intros N; [reflexivity|]. rewrite values_of_cons, IH by tauto.
  destruct (seqb x k) eqn:E; [apply seqb_spec in E; subst; tauto|reflexivity].
Qed.
Lemma mm_emplace_keys k v y : forall l, In y (map fst (mm_emplace k v l)) <-> y = k \/ In y (map fst l).
Proof.
  induction l as [|[k' v'] t IH]; cbn [mm_emplace map fst In]; [intuition|].
  destruct (scmp k k'); cbn [map fst In]; rewrite ?IH; intuition.
Qed.
Lemma mm_emplace_values k v : forall l, not_descending (map fst l) ->
  (forall x, values_of x (mm_emplace k v l) = values_of x l ++ (if seqb x k then [v] else [])) /\
  not_descending (map fst (mm_emplace k v l)).
Proof.
  induction l as [|[k' v'] t IH]; intros N.
  - split; [|exact I]. intros x. cbn [mm_emplace]. rewrite values_of_cons. cbn. apply app_nil_r.
  - cbn [map fst] in N. pose proof N as N0. apply not_descending_cons in N as [N F]. destruct (IH N) as [V D].
    assert (REC : scmp k k' <> Lt ->
      (forall x, values_of x ((k', v') :: mm_emplace k v t) = values_of x ((k', v') :: t) ++ (if seqb x k then [v] else [])) /\
      not_descending (map fst ((k', v') :: mm_emplace k v t))).
    { intros NL. split.
      - intros x. rewrite !values_of_cons, V, app_assoc. reflexivity.
      - cbn [map fst]. apply not_descending_cons. split; [exact D|]. rewrite Forall_forall in *. intros y Hy.
        apply mm_emplace_keys in Hy as [->|Hy]; [|auto]. rewrite scmp_anti. destruct (scmp k k'); cbn; congruence. }
    cbn [mm_emplace]. destruct (scmp k k') eqn:E; try (apply REC; discriminate). split.
    + intros x. rewrite values_of_cons. destruct (seqb x k) eqn:X; [|cbn [app]; rewrite app_nil_r; reflexivity].
      apply seqb_spec in X as ->. rewrite (values_of_none k ((k', v') :: t)); [reflexivity|].
      cbn [map fst In]. apply scmp_lt in E. intros [J|J].
      * subst k'. exact (slt_irrefl _ E).
      * rewrite Forall_forall in F. apply (F _ J). apply scmp_gt. exact E.
    + cbn [map fst]. change (scmp k k' <> Gt /\ not_descending (k' :: map fst t)). split; [congruence|exact N0].
Qed.
Definition section_values (name : str) (l : list (str * list (str * str))) : list (str * str) :=
  match first name l with Some vs => vs | None => [] end.
Lemma section_emplace_keys n k v y : forall l, In y (map fst (section_emplace n k v l)) <-> y = n \/ In y (map fst l).
Proof.
  induction l as [|[n' s] t IH]; cbn [section_emplace map fst In]; [intuition|].
  destruct (scmp n n') eqn:E; cbn [map fst In]; rewrite ?IH; try tauto; try (apply scmp_eq in E; subst; intuition; fail); intuition.
Qed.
Lemma section_emplace_values n k v : forall l, ascending (map fst l) ->
  ascending (map fst (section_emplace n k v l)) /\
  (forall x, section_values x (section_emplace n k v l) =
             if seqb x n then mm_emplace k v (section_values x l) else section_values x l).
Proof.
  induction l as [|[n' s] t IH]; intros A.
  - split; [exact I|]. intros x. unfold section_values. cbn [section_emplace first]. destruct (seqb x n); reflexivity.
  - cbn [map fst] in A. pose proof A as A0. apply ascending_cons in A as [A F]. destruct (IH A) as [D V].
    cbn [section_emplace]. destruct (scmp n n') eqn:E.
    + apply scmp_eq in E as <-. split; [exact A0|]. intros x. unfold section_values. cbn [first].
      destruct (seqb x n) eqn:X; reflexivity.
    + split; [cbn [map fst]; change (scmp n n' = Lt /\ ascending (n' :: map fst t)); auto|].
      intros x. unfold section_values at 1. cbn [first]. destruct (seqb x n) eqn:X; [|reflexivity].
      apply seqb_spec in X as ->. unfold section_values. replace (first n ((n', s) :: t)) with (@None (list (str * str))); [reflexivity|].
      symmetry. apply first_none. cbn [map fst In]. apply scmp_lt in E. intros [J|J].
      * subst n'. exact (slt_irrefl _ E).
      * rewrite Forall_forall in F. specialize (F _ J). apply scmp_lt in F. exact (slt_irrefl _ (slt_trans _ _ _ E F)).
    + split.
      * cbn [map fst]. apply ascending_cons. split; [exact D|]. rewrite Forall_forall in *. intros y Hy.
        apply section_emplace_keys in Hy as [->|Hy]; [|auto]. rewrite scmp_anti, E. reflexivity.
      * intros x. unfold section_values. cbn [first]. destruct (seqb x n') eqn:X.
        -- apply seqb_spec in X as ->. destruct (seqb n' n) eqn:Q; [|reflexivity].
           apply seqb_spec in Q as ->. rewrite scmp_refl in E. discriminate.
        -- apply V.
Qed.
Lemma line_values_snoc s k lines sec name v :
  line_values s k (lines ++ [(sec, name, v)]) = line_values s k lines ++ (if seqb s sec && seqb k name then [v] else []).
Proof. unfold line_values. rewrite filter_app, map_app. cbn [filter fst snd]. destruct (seqb s sec && seqb k name); reflexivity. Qed.
Lemma ini_parse_spec lines : let p := ini_parse lines in
  ascending (map fst (sections p)) /\
  (forall n, In n (map fst (sections p)) <-> n <> [] /\ In n (map (fun l => fst (fst l)) lines)) /\
  (forall n, not_descending (map fst (section_values n (sections p))) /\
             (n <> [] -> forall k, values_of k (section_values n (sections p)) = line_values n k lines)) /\
  not_descending (map fst (globals p)) /\
  (forall k, values_of k (globals p) = line_values [] k lines).
Proof.
  unfold ini_parse. induction lines as [|[[sec name] v] t IH] using rev_ind; cbn zeta in *.
  - cbn. intuition.
  - rewrite fold_left_app. cbn [fold_left]. destruct (fold_left on_value_parsed t (Ini [] [])) as [secs gl].
    cbn [sections globals] in IH. destruct IH as (A & K & S & G & V). unfold on_value_parsed.
    rewrite map_app. cbn [map fst].
    destruct sec as [|c sec].
    + cbn [sections globals]. destruct (mm_emplace_values name v gl G) as [V' G']. split; [exact A|]. split.
      { intros n. rewrite K, in_app_iff. cbn [In]. intuition congruence. }
      split.
      { intros n. destruct (S n) as [S1 S2]. split; [exact S1|]. intros N k. rewrite S2 by exact N. rewrite line_values_snoc.
        rewrite (proj2 (seqb_neq n [])) by exact N. cbn [andb]. rewrite app_nil_r. reflexivity. }
      split; [exact G'|]. intros k. rewrite V', V, line_values_snoc. rewrite seqb_refl. reflexivity.
    + set (sn := c :: sec) in *. cbn [sections globals]. destruct (section_emplace_values sn name v secs A) as [A' V'].
      split; [exact A'|]. split.
      { intros n. rewrite section_emplace_keys, K, in_app_iff. cbn [In]. split.
        - intros [->|[H1 H2]]; [split; [discriminate|auto]|auto].
        - intros [H1 [H2|[H2|[]]]]; auto. }
      split.
      { intros n. destruct (S n) as [S1 S2]. rewrite V'. destruct (mm_emplace_values name v _ S1) as [E1 E2].
        destruct (seqb n sn) eqn:Q.
        - split; [exact E2|]. intros N k. rewrite E1, S2 by exact N. rewrite line_values_snoc, Q. reflexivity.
        - split; [exact S1|]. intros N k. rewrite S2 by exact N. rewrite line_values_snoc, Q. cbn [andb]. rewrite app_nil_r. reflexivity. }
      split; [exact G|]. intros k. rewrite V, line_values_snoc. cbn [seqb]. rewrite (proj2 (seqb_neq [] sn)) by discriminate.
      cbn [andb]. rewrite app_nil_r. reflexivity.
Qed.
