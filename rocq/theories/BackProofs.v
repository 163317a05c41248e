(* Lemmas about the back ends: the contract, and what documents show. *)
From Coq Require Import String Ascii List Bool Arith NArith ZArith Lia.
From Verif Require Import ConvertModel ConfigModel ConfigProofs BackModel BackSpec.
Import ListNotations.
Local Open Scope nat_scope.

(* ---- the contract ---- *)
Lemma search_sound {V} name : forall (l : list (str * V)) i j v,
  search (seqb name) i l = Found j v -> i <= j /\ nth_error l (j - i) = Some (name, v).
Proof.
  induction l as [|[k w] t IH]; intros i j v; cbn [search]; [discriminate|].
  destruct (seqb name k) eqn:E.
  - intros H. injection H as <- <-. apply seqb_spec in E as <-. rewrite Nat.sub_diag. auto.
  - intros H. destruct (IH _ _ _ H) as [L N]. split; [lia|]. replace (j - i) with (S (j - S i)) by lia. exact N.
Qed.
Lemma search_none {V} name : forall (l : list (str * V)) i,
  search (seqb name) i l <> Crash /\ (search (seqb name) i l = NotFound <-> ~ In name (map fst l)).
Proof.
  induction l as [|[k w] t IH]; intros i; cbn [search map fst In].
  - split; [discriminate|]. tauto.
  - destruct (seqb name k) eqn:E.
    + apply seqb_spec in E as <-. split; [discriminate|]. split; [discriminate|]. intros H. destruct H. auto.
    + apply seqb_neq in E. destruct (IH (S i)) as [A B]. split; [exact A|]. rewrite B. intuition congruence.
Qed.
Lemma default_keys_all {V} (l : list (str * V)) :
  default_keys true (length l) (fun i => nth_error l i) = map fst l.
Proof.
  unfold default_keys. induction l as [|[k v] t IH] using rev_ind; [reflexivity|].
  rewrite app_length, map_app. cbn [length map fst]. rewrite Nat.add_1_r, seq_S, map_app. cbn [map plus].
  f_equal.
  - rewrite <- IH. apply map_ext_in. intros i Hi. apply in_seq in Hi. rewrite nth_error_app1 by lia. reflexivity.
  - rewrite nth_error_app2 by lia. rewrite Nat.sub_diag. reflexivity.
Qed.
(* a back end over a list of entries *)
Lemma entries_consistent {V} (l : list (str * V)) b :
  b_size b = length l -> (forall i, b_at b i = nth_error l i) ->
  (forall k, b_find b k = if b_assoc b then search (seqb k) 0 l else NotFound) ->
  b_keys b = (if b_assoc b then map fst l else []) ->
  (b_multi b = true -> b_assoc b = true) ->
  (b_assoc b = false -> forall k v, In (k, v) l -> k = []) -> consistent b.
Proof.
  intros Sz At Fd Ky Mu Em. unfold consistent. repeat apply conj.
  - intros i. rewrite At, Sz. apply nth_error_Some.
  - intros k i v. rewrite Fd, At. destruct (b_assoc b); [|discriminate].
    intros H. apply search_sound in H as [_ H]. rewrite Nat.sub_0_r in H. exact H.
  - intros k. rewrite Fd, Ky. destruct (b_assoc b); [apply search_none|]. split; [discriminate|].
    split; [intros _ []|reflexivity].
  - intros A. rewrite Ky, A, Sz. split; [apply map_length|]. intros i k v. rewrite At. intros H.
    rewrite nth_error_map, H. reflexivity.
  - intros A. rewrite Ky, A. split; [reflexivity|]. intros i k v. rewrite At. intros H. eapply Em; eauto using nth_error_In.
  - exact Mu.
Qed.

Lemma json_consistent ordered j : consistent (json_backend ordered j).
Proof.
  apply (entries_consistent (json_items j)); try reflexivity.
  - cbn [b_keys json_backend b_assoc]. destruct (is_object j) eqn:E; [|reflexivity]. apply default_keys_all.
  - discriminate.
  - cbn [b_assoc json_backend]. intros E k v. destruct j; try discriminate; cbn [json_items In]; try tauto;
      try (intros [H|[]]; injection H as <- <-; reflexivity).
    intros H. apply in_map_iff in H as (x & H & _). injection H as <- <-. reflexivity.
Qed.
Lemma json_distinct ordered j : unique_keys (json_tree j) -> distinct (json_backend ordered j).
Proof.
  intros U _. cbn [b_keys json_backend]. destruct j as [| | | | | |l|l]; try apply NoDup_nil.
  change (NoDup (default_keys true (length l) (fun i => nth_error l i))). rewrite (default_keys_all l). cbn [json_tree unique_keys] in U. destruct U as [U _]. specialize (U eq_refl).
  rewrite map_map in U. erewrite map_ext in U; [exact U|]. intros [k v]. reflexivity.
Qed.

Lemma visit_children_all l : visit_children l = l.
Proof. induction l as [|a [|b t] IH]; [reflexivity..|]. change (visit_children (a :: b :: t)) with (a :: visit_children (b :: t)). rewrite IH. reflexivity. Qed.
Definition xml_entries (e : xml) : list (str * xml) := map (fun c => (x_name c, c)) (x_children e).
Lemma xml_at e i : b_at (xml_backend (Some e)) i = nth_error (xml_entries e) i.
Proof. cbn [b_at xml_backend]. rewrite visit_children_all. unfold xml_entries. rewrite nth_error_map. reflexivity. Qed.
Lemma xml_size e : b_size (xml_backend (Some e)) = length (xml_entries e).
Proof. cbn [b_size xml_backend]. rewrite visit_children_all. unfold xml_entries. rewrite map_length. reflexivity. Qed.
Lemma xml_consistent e : consistent (xml_backend (Some e)).
Proof.
  apply (entries_consistent (xml_entries e)).
  - apply xml_size.
  - apply xml_at.
  - reflexivity.
  - cbn [b_keys xml_backend b_assoc]. rewrite visit_children_all. rewrite <- default_keys_all. unfold default_keys, xml_entries.
    rewrite map_length. apply map_ext. intros i. rewrite nth_error_map. reflexivity.
  - reflexivity.
  - discriminate.
Qed.

Lemma yaml_consistent y b : yaml_backend y = Some b -> consistent b.
Proof.
  unfold yaml_backend. destruct (is_map y || is_seq y); [|discriminate]. intros H. injection H as <-.
  apply (entries_consistent (yaml_items y)); try reflexivity; cbn [b_multi b_assoc].
  - discriminate.
  - intros E k v. destruct y; try discriminate; cbn [yaml_items In]; try tauto.
    intros H. apply in_map_iff in H as (x & H & _). injection H as <- <-. reflexivity.
Qed.

Lemma equal_count_nth k : forall l j, j < equal_count k l -> exists v, nth_error l j = Some (k, v).
Proof.
  induction l as [|[k' v] t IH]; cbn [equal_count]; intros j L; [lia|].
  destruct (seqb k k') eqn:E; [|lia]. apply seqb_spec in E as <-. destruct j as [|j]; cbn [nth_error]; [eauto|]. apply IH. lia.
Qed.
Lemma mm_find_sound pick name : forall l i j v,
  mm_find pick name i l = Some (j, v) -> i <= j /\ nth_error l (j - i) = Some (name, v).
Proof.
  induction l as [|[k w] t IH]; intros i j v; cbn [mm_find]; [discriminate|].
  destruct (seqb name k) eqn:E.
  - set (c := pick name mod equal_count name ((k, w) :: t)).
    assert (L : c < equal_count name ((k, w) :: t)) by (apply Nat.mod_upper_bound; cbn [equal_count]; rewrite E; lia).
    destruct (equal_count_nth _ _ _ L) as (u & N). rewrite N. intros H. injection H as <- <-.
    split; [lia|]. replace (i + c - i) with c by lia. exact N.
  - intros H. destruct (IH _ _ _ H) as [L N]. split; [lia|]. replace (j - i) with (S (j - S i)) by lia. exact N.
Qed.
Lemma mm_find_none pick name : forall l i, mm_find pick name i l = None <-> ~ In name (map fst l).
Proof.
  induction l as [|[k w] t IH]; intros i; cbn [mm_find map fst In]; [tauto|].
  destruct (seqb name k) eqn:E.
  - set (c := pick name mod equal_count name ((k, w) :: t)).
    assert (L : c < equal_count name ((k, w) :: t)) by (apply Nat.mod_upper_bound; cbn [equal_count]; rewrite E; lia).
    destruct (equal_count_nth _ _ _ L) as (u & N). rewrite N. apply seqb_spec in E as <-.
    split; [discriminate|]. intros H. destruct H. auto.
  - rewrite IH. apply seqb_neq in E. intuition congruence.
Qed.
Definition ini_entries (secs : list (str * list (str * str))) (values : list (str * str)) : list (str * ini_handle) :=
  map (fun e => (fst e, Section_ (snd e))) secs ++ map (fun e => (fst e, Value_ (snd e))) values.
Definition ini_secs (g : option (list (str * list (str * str)))) := match g with Some s => s | None => [] end.
Lemma ini_at pick g values i : b_at (ini_backend pick g values) i = nth_error (ini_entries (ini_secs g) values) i.
Proof.
  cbn [b_at ini_backend]. fold (ini_secs g). unfold ini_entries.
  destruct (Nat.ltb_spec i (length (ini_secs g))) as [L|L].
  - rewrite nth_error_app1 by (rewrite map_length; lia). rewrite nth_error_map. reflexivity.
  - rewrite nth_error_app2 by (rewrite map_length; lia). rewrite map_length.
    destruct (Nat.ltb_spec i (length (ini_secs g) + length values)) as [M|M]; rewrite nth_error_map; [reflexivity|].
    rewrite (proj2 (nth_error_None values (i - length (ini_secs g)))) by lia. reflexivity.
Qed.
Lemma ini_keys pick g values : b_keys (ini_backend pick g values) = map fst (ini_entries (ini_secs g) values).
Proof. cbn [b_keys ini_backend]. fold (ini_secs g). unfold ini_entries. rewrite map_app, !map_map. reflexivity. Qed.
Lemma ini_size pick g values : b_size (ini_backend pick g values) = length (ini_entries (ini_secs g) values).
Proof. cbn [b_size ini_backend]. fold (ini_secs g). unfold ini_entries. rewrite app_length, !map_length. reflexivity. Qed.
Lemma ini_consistent pick g values : consistent (ini_backend pick g values).
Proof.
  unfold consistent. repeat apply conj.
  - intros i. rewrite ini_at, ini_size. apply nth_error_Some.
  - intros k i v. rewrite ini_at. cbn [b_find ini_backend]. fold (ini_secs g).
    destruct (search (seqb k) 0 (ini_secs g)) as [j s| |] eqn:E.
    + intros H. injection H as <- <-. apply search_sound in E as [_ E]. rewrite Nat.sub_0_r in E.
      unfold ini_entries. rewrite nth_error_app1.
      * rewrite nth_error_map, E. reflexivity.
      * rewrite map_length. apply nth_error_Some. congruence.
    + destruct (mm_find pick k 0 values) as [[j w]|] eqn:F; [|discriminate]. intros H. injection H as <- <-.
      apply mm_find_sound in F as [_ F]. rewrite Nat.sub_0_r in F. unfold ini_entries.
      rewrite nth_error_app2 by (rewrite map_length; lia). rewrite map_length.
      replace (length (ini_secs g) + j - length (ini_secs g)) with j by lia. rewrite nth_error_map, F. reflexivity.
    + destruct (search_none k (ini_secs g) 0) as [C _]. contradiction.
  - intros k. rewrite ini_keys. cbn [b_find ini_backend]. fold (ini_secs g).
    unfold ini_entries. rewrite map_app, !map_map. cbn [fst]. rewrite in_app_iff.
    destruct (search_none k (ini_secs g) 0) as [C D].
    destruct (search (seqb k) 0 (ini_secs g)) as [j s| |] eqn:E.
    + split; [discriminate|]. split; [discriminate|]. intros H.
      assert (~ In k (map fst (ini_secs g))) as Q by tauto. apply D in Q. discriminate.
    + assert (~ In k (map fst (ini_secs g))) as Q by (apply D; reflexivity).
      pose proof (mm_find_none pick k values 0) as M. destruct (mm_find pick k 0 values) as [[j w]|].
      * split; [discriminate|]. split; [discriminate|]. intros H. assert (~ In k (map fst values)) as R by tauto.
        apply M in R. discriminate.
      * split; [discriminate|]. split; [|reflexivity]. intros _ [H|H]; [exact (Q H)|]. apply M in H; [exact H|reflexivity].
    + contradiction.
  - intros _. rewrite ini_keys, ini_size. split; [apply map_length|]. intros i k v. rewrite ini_at. intros H.
    rewrite nth_error_map, H. reflexivity.
  - discriminate.
  - reflexivity.
Qed.

(* ---- documents show their contents ---- *)
Lemma json_ind' (P : json -> Prop) :
  (forall j, match j with JArr _ | JObj _ => False | _ => True end -> P j) ->
  (forall l, Forall P l -> P (JArr l)) -> (forall l, Forall (fun e => P (snd e)) l -> P (JObj l)) -> forall j, P j.
Proof.
  intros H0 HA HO. fix IH 1. intros [|z|n|b|s|b|l|l]; try (apply H0; exact I).
  - apply HA. induction l as [|x t IHl]; constructor; [apply IH|exact IHl].
  - apply HO. induction l as [|[k x] t IHl]; constructor; [apply IH|exact IHl].
Qed.
Lemma xml_ind' (P : xml -> Prop) : (forall n a t l, Forall P l -> P (Elem n a t l)) -> forall e, P e.
Proof.
  intros H. fix IH 1. intros [n a t l]. apply H. induction l as [|x u IHl]; constructor; [apply IH|exact IHl].
Qed.
Lemma yaml_ind' (P : yaml -> Prop) :
  P YNull -> (forall s, P (YScalar s)) -> (forall l, Forall P l -> P (YSeq l)) ->
  (forall l, Forall (fun e => P (snd e)) l -> P (YMap l)) -> forall y, P y.
Proof.
  intros H0 HS HA HO. fix IH 1. intros [|s|l|l]; [exact H0|apply HS| |].
  - apply HA. induction l as [|x t IHl]; constructor; [apply IH|exact IHl].
  - apply HO. induction l as [|[k x] t IHl]; constructor; [apply IH|exact IHl].
Qed.
Lemma tree_ind' (P : tree -> Prop) :
  (forall t, match t with TNode _ _ => False | _ => True end -> P t) ->
  (forall a es, Forall (fun e => P (snd e)) es -> P (TNode a es)) -> forall t, P t.
Proof.
  intros H0 H. fix IH 1. intros [|z|b|b|s|a es]; try (apply H0; exact I).
  apply H. induction es as [|[k x] t IHl]; constructor; [apply IH|exact IHl].
Qed.

Lemma json_shows ordered : forall j, shows json_get (json_backend ordered) j (json_tree j).
Proof.
  induction j as [j H|l IH|l IH] using json_ind'.
  - destruct j; try contradiction; cbn [json_tree]; constructor; reflexivity.
  - apply (shows_conf _ _ _ (JArr l)); [reflexivity|]. constructor; [reflexivity| |].
    + cbn [b_size json_backend json_items]. rewrite !map_length. reflexivity.
    + intros i k t. rewrite nth_error_map. destruct (nth_error l i) as [x|] eqn:E; [|discriminate].
      intros H. injection H as <- <-. exists x. split.
      * cbn [b_at json_backend json_items]. rewrite nth_error_map, E. reflexivity.
      * rewrite Forall_forall in IH. apply IH. eapply nth_error_In; eauto.
  - apply (shows_conf _ _ _ (JObj l)); [reflexivity|]. constructor; [reflexivity| |].
    + cbn [b_size json_backend json_items]. rewrite !map_length. reflexivity.
    + intros i k t. rewrite nth_error_map. destruct (nth_error l i) as [[n x]|] eqn:E; [|discriminate].
      intros H. injection H as <- <-. exists x. split; [exact E|].
      rewrite Forall_forall in IH. apply (IH (n, x)). eapply nth_error_In; eauto.
Qed.

Definition xml_back (e : xml) : backend xml := xml_backend (Some e).
Lemma xml_shows_in e : Forall (fun c => shows xml_get xml_back c (xml_tree c)) (x_children e) ->
  shows_in xml_get xml_back e true (map (fun c => (x_name c, xml_tree c)) (x_children e)).
Proof.
  intros IH. constructor; [reflexivity| |].
  - unfold xml_back. rewrite xml_size. unfold xml_entries. rewrite !map_length. reflexivity.
  - intros i k t. rewrite nth_error_map. destruct (nth_error (x_children e) i) as [c|] eqn:E; [|discriminate].
    intros H. injection H as <- <-. exists c. split.
    + unfold xml_back. rewrite xml_at. unfold xml_entries. rewrite nth_error_map, E. reflexivity.
    + rewrite Forall_forall in IH. apply IH. eapply nth_error_In; eauto.
Qed.
Lemma xml_shows : forall e, shows xml_get xml_back e (xml_tree e).
Proof.
  induction e as [n a t l IH] using xml_ind'. pose proof (xml_shows_in (Elem n a t l) IH) as In_.
  destruct l as [|c l].
  - destruct a as [s|]; [apply shows_str; reflexivity|]. destruct t as [s|]; [apply shows_str; reflexivity|].
    eapply shows_conf; [reflexivity|exact In_].
  - eapply shows_conf; [reflexivity|exact In_].
Qed.
Lemma xml_shows_root e : exists es, xml_root_tree e = TNode true es /\ shows_in xml_get xml_back e true es.
Proof. eexists. split; [reflexivity|]. apply xml_shows_in. apply Forall_forall. intros c _. apply xml_shows. Qed.

Lemma yaml_shows : forall y, shows yaml_get yaml_back y (yaml_tree y).
Proof.
  induction y as [|s|l IH|l IH] using yaml_ind'.
  - apply (shows_conf _ _ _ (YMap [])); [reflexivity|]. constructor; [reflexivity..|]. intros [|i] k t; discriminate.
  - apply shows_str. reflexivity.
  - apply (shows_conf _ _ _ (YSeq l)); [reflexivity|]. constructor; [reflexivity| |].
    + cbn [b_size yaml_back yaml_backend is_map is_seq orb yaml_items]. rewrite !map_length. reflexivity.
    + intros i k t. rewrite nth_error_map. destruct (nth_error l i) as [x|] eqn:E; [|discriminate].
      intros H. injection H as <- <-. exists x. split.
      * cbn [b_at yaml_back yaml_backend is_map is_seq orb yaml_items]. rewrite nth_error_map, E. reflexivity.
      * rewrite Forall_forall in IH. apply IH. eapply nth_error_In; eauto.
  - apply (shows_conf _ _ _ (YMap l)); [reflexivity|]. constructor; [reflexivity| |].
    + cbn [b_size yaml_back yaml_backend is_map is_seq orb yaml_items]. rewrite !map_length. reflexivity.
    + intros i k t. rewrite nth_error_map. destruct (nth_error l i) as [[n x]|] eqn:E; [|discriminate].
      intros H. injection H as <- <-. exists x. split.
      * cbn [b_at yaml_back yaml_backend is_map is_seq orb yaml_items]. rewrite nth_error_map, E. reflexivity.
      * rewrite Forall_forall in IH. apply (IH (n, x)). eapply nth_error_In; eauto.
Qed.
