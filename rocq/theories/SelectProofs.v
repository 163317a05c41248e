(* Proofs about SelectModel. *)
From Coq Require Import List Bool Arith Ascii String Lia.
From Verif Require Import ActorPathModel ActorPathProofs SelectModel.
Import ListNotations.

Section TreeInd.
  Variable P : tree -> Prop.
  Hypothesis H : forall i p kids, Forall P kids -> P (Node i p kids).
  Fixpoint tree_ind' (t : tree) : P t :=
    match t with
    | Node i p kids => H i p kids ((fix go ks : Forall P ks := match ks with [] => Forall_nil _ | k :: ks' => Forall_cons k (tree_ind' k) (go ks') end) kids)
    end.
End TreeInd.

Definition child_ok (p : str) (k : tree) := exists n, n <> [] /\ slash_free n /\ path_of k = p ++ slash :: n.
Lemma well_named_kids i p kids : well_named (Node i p kids) <-> NoDup (map name_of kids) /\ Forall (fun k => child_ok p k /\ well_named k) kids.
Proof.
  simpl. split; intros [A B]; (split; [exact A|]); clear A.
  - induction kids as [|k ks IH]; constructor; [split; apply B|apply IH, B].
  - induction B as [|k ks [X Y] _ IH]; simpl; auto.
Qed.

(* walking down, first child of that name *)
Fixpoint descend (t : tree) (names : list str) : option tree :=
  match names with
  | [] => Some t
  | n :: rest => match List.find (fun k => str_eqb n (name_of k)) (kids_of t) with
                 | None => None
                 | Some k => descend k rest
                 end
  end.
Definition answer_of (o : option tree) : answer := match o with Some u => Success (id_of u) | None => Failure end.

Lemma select_nobody_empty t : select t Nobody [] = [(Nobody, Success (id_of t))].
Proof. destruct t; reflexivity. Qed.

(* the selector gets exactly one answer, the one of the first matches; further
   answers go to nobody *)
Lemma select_first names : forall t sender, exists junk,
  select t sender (rev names) = (sender, answer_of (descend t names)) :: map (fun i => (Nobody, Success i)) junk.
Proof.
  induction names as [|n names IH]; intros t sender; destruct t as [i p kids].
  - exists []. reflexivity.
  - cbn [select]. rewrite rev_involutive. cbn [descend kids_of].
    match goal with |- context[(?g kids sender (rev names) false)] => set (go := g) end.
    assert (J : forall ks, exists junk, go ks Nobody [] true = map (fun i => (Nobody, Success i)) junk).
    { induction ks as [|k ks [junk E]]; [exists []; reflexivity|]. unfold go. fold go. destruct (str_eqb n (name_of k)).
      - rewrite select_nobody_empty, E. exists (id_of k :: junk). reflexivity.
      - exists junk. exact E. }
    assert (X : forall ks, exists junk, go ks sender (rev names) false = (sender, answer_of (match List.find (fun k => str_eqb n (name_of k)) ks with None => None | Some k => descend k names end)) :: map (fun i => (Nobody, Success i)) junk).
    { induction ks as [|k ks [junk E]]; [exists []; reflexivity|]. unfold go. fold go. cbn [List.find]. destruct (str_eqb n (name_of k)).
      - destruct (IH k sender) as [j1 E1]. destruct (J ks) as [j2 E2]. exists (j1 ++ j2). rewrite E1, E2, map_app. reflexivity.
      - exists junk. exact E. }
    apply X.
Qed.
Lemma select_unique names : forall t sender, well_named t -> select t sender (rev names) = [(sender, answer_of (descend t names))].
Proof.
  induction names as [|n names IH]; intros t sender W; destruct t as [i p kids]; [reflexivity|].
  cbn [select]. rewrite rev_involutive. cbn [descend kids_of].
  match goal with |- context[(?g kids sender (rev names) false)] => set (go := g) end.
  apply well_named_kids in W. destruct W as [ND W].
  assert (J : forall ks, ~ In n (map name_of ks) -> go ks Nobody [] true = []).
  { induction ks as [|k ks E]; intros NI; [reflexivity|]. unfold go. fold go. simpl in NI. destruct (str_eqb_spec n (name_of k)); [subst; tauto|]. apply E. tauto. }
  induction kids as [|k ks IHk]; [reflexivity|]. unfold go. fold go. cbn [List.find].
  inversion ND; subst. inversion W; subst. destruct (str_eqb_spec n (name_of k)) as [->|N].
  - rewrite IH by tauto. rewrite J by assumption. reflexivity.
  - apply IHk; assumption.
Qed.

(* ---- walking down is looking up the path ---- *)
Lemma get_name_child p n : slash_free n -> get_name (p ++ slash :: n) = n.
Proof. intros H. unfold get_name. apply go_last, H. Qed.
Definition tail_of (names : list str) : str := flat_map (fun n => slash :: n) names.
Lemma nodes_in i p kids u : In u (nodes (Node i p kids)) <-> u = Node i p kids \/ exists k, In k kids /\ In u (nodes k).
Proof. simpl. rewrite in_flat_map. firstorder. Qed.

Lemma find_some_kid n kids k : List.find (fun k => str_eqb n (name_of k)) kids = Some k -> In k kids /\ name_of k = n.
Proof. intros H. apply find_some in H. destruct H as [A B]. destruct (str_eqb_spec n (name_of k)); [auto|discriminate]. Qed.
Lemma find_kid n kids k : NoDup (map name_of kids) -> In k kids -> name_of k = n -> List.find (fun k => str_eqb n (name_of k)) kids = Some k.
Proof.
  intros ND I E. induction kids as [|x ks IH]; [destruct I|]. simpl in *. inversion ND; subst. destruct (str_eqb_spec (name_of k) (name_of x)) as [e|e].
  - destruct I as [->|I]; [reflexivity|]. exfalso. apply H1. rewrite <- e. apply in_map, I.
  - destruct I as [->|I]; [congruence|auto].
Qed.

Lemma descend_sound names : forall t u, well_named t -> descend t names = Some u -> In u (nodes t) /\ path_of u = path_of t ++ tail_of names.
Proof.
  induction names as [|n names IH]; intros t u W D; destruct t as [i p kids].
  - injection D as <-. split; [simpl; auto|]. simpl. now rewrite app_nil_r.
  - cbn [descend kids_of] in D. destruct (List.find _ kids) as [k|] eqn:F; [|discriminate]. apply find_some_kid in F. destruct F as [I E].
    apply well_named_kids in W. destruct W as [_ W]. rewrite Forall_forall in W. destruct (W k I) as [(n' & N1 & N2 & N3) Wk].
    destruct (IH k u Wk D) as [A B]. split; [apply nodes_in; right; eauto|]. rewrite B, N3. simpl.
    unfold name_of in E. rewrite N3, get_name_child in E by assumption. subst n'. rewrite <- app_assoc. reflexivity.
Qed.
Lemma node_tail t : well_named t -> forall u, In u (nodes t) -> exists names, Forall (fun n => n <> [] /\ slash_free n) names /\ path_of u = path_of t ++ tail_of names /\ descend t names = Some u.
Proof.
  induction t as [i p kids IH] using tree_ind'. intros W u I. apply nodes_in in I. destruct I as [->|(k & Ik & I)].
  - exists []. simpl. rewrite app_nil_r. auto.
  - apply well_named_kids in W. destruct W as [ND W]. rewrite Forall_forall in W, IH. destruct (W k Ik) as [(n & N1 & N2 & N3) Wk].
    destruct (IH k Ik Wk u I) as (names & A & B & C). exists (n :: names). split; [auto|]. split.
    + rewrite B, N3. simpl. rewrite <- app_assoc. reflexivity.
    + cbn [descend kids_of]. rewrite (find_kid n kids k); auto. unfold name_of. rewrite N3. now apply get_name_child.
Qed.
Lemma tail_inj names names' : Forall (fun n => n <> [] /\ slash_free n) names -> Forall (fun n => n <> [] /\ slash_free n) names' ->
  tail_of names = tail_of names' -> names = names'.
Proof.
  intros A. revert names'. induction A as [|n names [N1 N2] A IH]; intros names' B E; destruct B as [|n' names' [N1' N2'] B]; simpl in E; try discriminate; [reflexivity|].
  injection E as E.
  assert (S : forall m ms, slash_free m -> find_slash (m ++ tail_of ms) = (m, tail_of ms)).
  { intros m ms H. destruct ms as [|x ms]; simpl; [rewrite app_nil_r; now apply find_slash_end|now apply find_slash_app]. }
  assert (X := S n names N2). rewrite E, (S n' names' N2') in X. injection X as -> X. f_equal. auto.
Qed.
Lemma descend_complete t names u : well_named t -> Forall (fun n => n <> [] /\ slash_free n) names ->
  In u (nodes t) -> path_of u = path_of t ++ tail_of names -> descend t names = Some u.
Proof.
  intros W F I E. destruct (node_tail t W u I) as (names' & F' & E' & D). rewrite E in E'. apply app_inv_head in E'.
  apply tail_inj in E'; auto. subst. exact D.
Qed.

Lemma tail_join names : names <> [] -> tail_of names = slash :: join names.
Proof.
  induction names as [|n names IH]; [congruence|]. intros _. destruct names as [|m names]; [simpl; now rewrite app_nil_r|].
  change (tail_of (n :: m :: names)) with (slash :: n ++ tail_of (m :: names)). rewrite IH by discriminate. reflexivity.
Qed.
Lemma tail_show sys sc names : names <> [] -> (path_root ++ sys) ++ tail_of (scope_to_str sc :: names) = show sys sc names.
Proof.
  intros H. unfold show. change (tail_of (scope_to_str sc :: names)) with (slash :: scope_to_str sc ++ tail_of names). rewrite tail_join by exact H.
  rewrite <- !app_assoc. reflexivity.
Qed.

Lemma find_actor_spec root sys target e :
  path_of root = path_root ++ sys -> well_named root -> parce target false = Accept e ->
  (exists u, In u (nodes root) /\ path_of u = show sys (e_scope e) (e_names e) /\ find_actor root target = Some [(Selector, Success (id_of u))]) \/
  ((forall u, In u (nodes root) -> path_of u <> show sys (e_scope e) (e_names e)) /\ find_actor root target = Some [(Selector, Failure)]).
Proof.
  intros P W A. unfold find_actor. rewrite A.
  destruct (parce_sound target e A) as (rest & S). 
  assert (NE : e_names e <> [] /\ Forall (fun n => n <> [] /\ slash_free n) (e_names e)) by tauto. destruct NE as [NE FN].
  set (names := scope_to_str (e_scope e) :: e_names e).
  assert (FF : Forall (fun n => n <> [] /\ slash_free n) names).
  { constructor; [|exact FN]. split; [destruct (e_scope e); discriminate|apply scope_slash_free]. }
  replace (rev (e_names e) ++ [scope_to_str (e_scope e)]) with (rev names) by reflexivity.
  rewrite select_unique by exact W. destruct (descend root names) as [u|] eqn:D; simpl answer_of.
  - left. exists u. destruct (descend_sound names root u W D) as [I E]. split; [exact I|]. split; [|reflexivity].
    rewrite E, P. apply tail_show, NE.
  - right. split; [|reflexivity]. intros u I E. rewrite <- (tail_show sys (e_scope e) (e_names e) NE), <- P in E.
    rewrite (descend_complete root names u W FF I E) in D. discriminate.
Qed.
