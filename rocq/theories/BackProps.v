(* C60-C64: the back ends for documents. *)
From Coq Require Import String Ascii List Bool Arith NArith ZArith Lia.
From Verif Require Import ConvertModel ConvertProofs ConvertProps ConfigModel ConfigProofs BackModel BackSpec BackProofs BackTrip.
Import ListNotations.
Local Open Scope nat_scope.

(* ---- C60: what index and key answer fits together ---- *)
Theorem C60_json : forall ordered j, consistent (json_backend ordered j) /\
  (unique_keys (json_tree j) -> distinct (json_backend ordered j)).
Proof. intros o j. split; [apply json_consistent|apply json_distinct]. Qed.
Theorem C60_xml : forall e, consistent (xml_backend (Some e)) /\ distinct (xml_backend (Some e)).
Proof. intros e. split; [apply xml_consistent|]. intros H. discriminate. Qed.
Theorem C60_yaml : forall y b, yaml_backend y = Some b -> consistent b.
Proof. exact yaml_consistent. Qed.
(* whichever of several equal keys std::multimap::find gives *)
Theorem C60_ini : forall pick p values,
  consistent (ini_document pick p) /\ distinct (ini_document pick p) /\
  consistent (ini_section pick values) /\ distinct (ini_section pick values).
Proof.
  intros pick p values. split; [apply ini_consistent|]. split; [intros H; discriminate|].
  split; [apply ini_consistent|intros H; discriminate].
Qed.
(* reading through the back ends gives the contents of the document *)
Theorem C60_contents :
  (forall ordered j, shows json_get (json_backend ordered) j (json_tree j)) /\
  (forall e, shows xml_get (fun e => xml_backend (Some e)) e (xml_tree e)) /\
  (forall e, exists es, xml_root_tree e = TNode true es /\ shows_in xml_get (fun e => xml_backend (Some e)) e true es) /\
  (forall y, shows yaml_get yaml_back y (yaml_tree y)).
Proof. exact (conj json_shows (conj xml_shows (conj xml_shows_root yaml_shows))). Qed.
(* a document that has no root element, such as one with a comment only, is read
   without error, but looking up a key in it dereferences a null pointer *)
Theorem C60_xml_no_root_refuted : exists k, b_find (xml_backend None) k = Crash.
Proof. exists (chars "a"). reflexivity. Qed.
(* keys of yaml that are not scalars all show as the empty string *)
Theorem C60_yaml_distinct_refuted : exists y b, yaml_backend y = Some b /\ consistent b /\ ~ distinct b.
Proof.
  pose (y := YMap [(YSeq [YScalar (chars "1")], YScalar (chars "a")); (YSeq [YScalar (chars "2")], YScalar (chars "b"))]).
  destruct (yaml_backend y) as [b|] eqn:E; [|discriminate]. exists y, b. split; [exact E|]. split; [apply (yaml_consistent y); exact E|].
  injection E as <-. intros D. specialize (D eq_refl). cbn in D. inversion D as [|? ? N _]. apply N. left. reflexivity.
Qed.
Example C60_json_ex :
  let j := JObj [(chars "b", JArr [JInt 1]); (chars "a", JNull)] in
  let b := json_backend true j in
  b_size b = 2 /\ b_at b 1 = Some (chars "a", JNull) /\ b_find b (chars "a") = Found 1 JNull /\
  b_keys b = [chars "b"; chars "a"] /\ b_find b (chars "c") = NotFound.
Proof. vm_compute. repeat split. Qed.
Example C60_ini_ex :
  let b := ini_document (fun _ => 5) (ini_parse [(chars "s", chars "x", chars "1"); ([], chars "g", chars "2"); ([], chars "g", chars "3")]) in
  b_keys b = [chars "s"; chars "g"; chars "g"] /\ b_find b (chars "g") = Found 2 (Value_ (chars "3")).
Proof. vm_compute. repeat split. Qed.
Example C60_xml_ex :
  let e := Elem (chars "root") None None [Elem (chars "a") (Some (chars "1")) None []; Elem (chars "a") None (Some (chars "2")) []] in
  b_size (xml_backend (Some e)) = 2 /\
  xml_root_tree e = TNode true [(chars "a", TStr (chars "1")); (chars "a", TStr (chars "2"))].
Proof. vm_compute. repeat split. Qed.

(* ---- C61: json ---- *)
(* written and read back, in whatever order, every path leads to the same value *)
Theorem C61_lookup : forall utf8 write_ordered read_ordered c,
  every (json_scalar utf8) (fun k => utf8 k = true) (conf_tree c) ->
  exists j, reparse_json utf8 read_ordered (json_write write_ordered (Some c)) = Some j /\
    (forall p, option_map shape (lookup false p (json_tree j)) = option_map shape (lookup false p (conf_tree c))) /\
    unique_keys (json_tree j).
Proof.
  intros utf8 ow o c OK. destruct (json_trip utf8 ow o c OK) as (j & ow' & E & T & _). exists j. split; [exact E|].
  rewrite T. split; [|apply norm_unique]. intros p. rewrite !norm_lookup_shape. reflexivity.
Qed.
(* with order on both sides, exactly the same configuration *)
Theorem C61_exact : forall utf8 write_ordered c,
  every (json_scalar utf8) (fun k => utf8 k = true) (conf_tree c) -> unique_keys (conf_tree c) ->
  write_ordered = Some true \/ (write_ordered = None /\ ckind c = KOrdered) ->
  exists j, reparse_json utf8 true (json_write write_ordered (Some c)) = Some j /\ json_tree j = conf_tree c.
Proof.
  intros utf8 ow c OK U W. destruct (json_trip utf8 ow true c OK) as (j & ow' & E & T & O). exists j. split; [exact E|].
  rewrite T, O by exact W. rewrite !norm_id; auto. apply norm_unique.
Qed.
(* read without order, the keys are sorted throughout *)
Theorem C61_sorted : forall utf8 write_ordered c,
  every (json_scalar utf8) (fun k => utf8 k = true) (conf_tree c) ->
  exists j, reparse_json utf8 false (json_write write_ordered (Some c)) = Some j /\ sorted_keys (json_tree j).
Proof.
  intros utf8 ow c OK. destruct (json_trip utf8 ow false c OK) as (j & ow' & E & T & O). exists j. split; [exact E|].
  rewrite T. apply norm_sorted.
Qed.
(* by default the order of ordered maps inside an array, or inside a plain map, is lost *)
Theorem C61_nested_order_refuted : exists c,
  every (json_scalar (fun _ => true)) (fun _ => True) (conf_tree c) /\ unique_keys (conf_tree c) /\
  forall j, reparse_json (fun _ => true) true (json_write None (Some c)) = Some j -> json_tree j <> conf_tree c.
Proof.
  exists (Conf KArray [([], Some (VConf (Some (Conf KOrdered [(chars "b", Some (VInt 1)); (chars "a", Some (VInt 2))]))))]).
  split; [cbn; unfold int64; repeat split; auto; lia|]. split.
  - cbn. repeat split; try discriminate. intros _. repeat constructor; cbn; intuition discriminate.
  - intros j H. cbn in H. injection H as <-. cbn. discriminate.
Qed.
(* infinities and NaN come back as nothing *)
Theorem C61_not_finite_refuted : exists c b, lookup false [Key (chars "x")] (conf_tree c) = Some (TReal b) /\
  exists j, reparse_json (fun _ => true) true (json_write None (Some c)) = Some j /\
            lookup false [Key (chars "x")] (json_tree j) = Some TNone.
Proof.
  exists (Conf KMap [(chars "x", Some (VReal (2047 * 2 ^ 52)))]), (2047 * 2 ^ 52)%N. split; [reflexivity|].
  exists (JObj [(chars "x", JNull)]). split; vm_compute; reflexivity.
Qed.
(* a string that is not UTF-8 makes write throw *)
Theorem C61_utf8_refuted : forall (utf8 : str -> bool) s, utf8 s = false -> exists c,
  lookup false [Key (chars "x")] (conf_tree c) = Some (TStr s) /\
  forall o, reparse_json utf8 o (json_write None (Some c)) = None.
Proof.
  intros utf8 s E. exists (Conf KMap [(chars "x", Some (VStr s))]). split; [reflexivity|]. intros o.
  cbn. rewrite E. cbn. unfold guard. match goal with |- context [if ?b then _ else _] => destruct b end; reflexivity.
Qed.
(* of the values of a multimap only the first is written *)
Theorem C61_multi_refuted : exists c, forall o, exists j, json_write o (Some c) = j /\
  length (centries c) = 2 /\ b_size (json_backend true j) = 1.
Proof.
  exists (Conf KMulti [(chars "x", Some (VInt 1)); (chars "x", Some (VInt 2))]). intros [[|]|]; eexists; split; reflexivity || (split; reflexivity).
Qed.
(* numbers of the document beyond int64_t come out negative *)
Theorem C61_large_numbers_refuted : exists n, (n < 2 ^ 64)%N /\ json_get (JUInt n) = SInt (-1).
Proof. exists (2 ^ 64 - 1)%N. split; reflexivity. Qed.
Example C61_ex :
  let c := Conf KOrdered [(chars "b", Some (VInt 7)); (chars "a", Some (VConf (Some (Conf KArray [([], Some (VBool true)); ([], None)]))))] in
  (exists j, reparse_json (fun _ => true) true (json_write None (Some c)) = Some j /\ json_tree j = conf_tree c) /\
  (exists j, reparse_json (fun _ => true) false (json_write None (Some c)) = Some j /\ json_tree j <> conf_tree c /\
             lookup false [Key (chars "a"); Idx 0] (json_tree j) = Some (TBool true)).
Proof. split; eexists; (split; [reflexivity|]); [reflexivity|]. split; [discriminate|reflexivity]. Qed.

(* ---- C62: xml ---- *)
Theorem C62_round_trip : forall real_text xml_name text_value root c,
  xml_name (chars "i") = true -> xml_name root = true -> ~ In "000"%char root ->
  every (xml_scalar_ok real_text) (fun k => xml_name k = true /\ ~ In "000"%char k) (conf_tree c) ->
  exists x, reparse_xml xml_name (xml_write real_text text_value root (Some c)) = Some x /\
            xml_root_tree x = xml_view real_text text_value (conf_tree c).
Proof. intros rt nm tv root c NI NR ZR OK. apply xml_trip; auto. split; auto. Qed.
(* numbers and truth values read back as what they were *)
Lemma xml_view_at rt tv : forall p t t', at_indices p t = Some t' -> at_indices p (xml_view rt tv t) = Some (xml_view rt tv t').
Proof.
  induction p as [|i p IH]; intros t t'; cbn [at_indices].
  - intros H. injection H as <-. reflexivity.
  - destruct t as [| | | | |a es]; try discriminate. cbn [xml_view]. rewrite nth_error_map.
    destruct (nth_error es i) as [[k v]|]; [|discriminate]. cbn [option_map]. apply IH.
Qed.
Theorem C62_typed : forall real_text xml_name text_value root c x,
  xml_name (chars "i") = true -> xml_name root = true -> ~ In "000"%char root ->
  every (xml_scalar_ok real_text) (fun k => xml_name k = true /\ ~ In "000"%char k) (conf_tree c) ->
  reparse_xml xml_name (xml_write real_text text_value root (Some c)) = Some x ->
  forall p,
    (forall z, at_indices p (conf_tree c) = Some (TInt z) -> int64 z ->
       exists s, at_indices p (xml_root_tree x) = Some (TStr s) /\ int_of_string s = Some z) /\
    (forall b, at_indices p (conf_tree c) = Some (TBool b) ->
       exists s, at_indices p (xml_root_tree x) = Some (TStr s) /\ bool_of_string s = Some b).
Proof.
  intros rt nm tv root c x NI NR ZR OK E p. destruct (C62_round_trip rt nm tv root c NI NR ZR OK) as (x' & E' & T).
  assert (x' = x) by congruence. subst x'. rewrite T. split.
  - intros z H Z. exists (int_to_string z). split; [exact (xml_view_at rt tv p _ _ H)|].
    apply round_trip_plain. unfold int64 in Z. unfold int_min, int_max. lia.
  - intros b H. exists (bool_text b). split; [exact (xml_view_at rt tv p _ _ H)|]. apply bool_text_read.
Qed.
(* what differs: arrays are maps with equal keys, blank text is an empty map, strings
   end at a NUL, and carriage returns are line feeds *)
Definition xml_back_and_forth (tv : bool) (c : conf) : option tree :=
  option_map xml_root_tree (reparse_xml (fun _ => true) (xml_write (fun _ => chars "0") tv (chars "r") (Some c))).
Theorem C62_array_refuted : exists c, ckind c = KArray /\
  xml_back_and_forth false c = Some (TNode true [(chars "i", TStr (chars "1")); (chars "i", TStr (chars "2"))]).
Proof. exists (Conf KArray [([], Some (VInt 1)); ([], Some (VInt 2))]). split; reflexivity. Qed.
Theorem C62_blank_text_refuted : exists c, conf_tree c = TNode true [(chars "a", TStr (chars " "))] /\
  xml_back_and_forth true c = Some (TNode true [(chars "a", TNode true [])]) /\
  xml_back_and_forth false c = Some (conf_tree c).
Proof. exists (Conf KMap [(chars "a", Some (VStr (chars " ")))]). repeat split. Qed.
Theorem C62_plain_refuted : exists c, conf_tree c = TNode true [(chars "a", TStr ["x"; "000"; "y"]%char); (chars "b", TStr ["013"%char])] /\
  xml_back_and_forth false c = Some (TNode true [(chars "a", TStr (chars "x")); (chars "b", TStr ["010"%char])]).
Proof. exists (Conf KMap [(chars "a", Some (VStr ["x"; "000"; "y"]%char)); (chars "b", Some (VStr ["013"%char]))]). split; reflexivity. Qed.
(* a truth value becomes the text true, which is not the text it converts to otherwise *)
Theorem C62_bool_as_string_refuted : exists b, bool_text b <> bool_to_string b /\ int_of_string (bool_text b) = None /\ int_of_string (bool_to_string b) = Some 1%Z.
Proof. exists true. repeat split. discriminate. Qed.
Example C62_ex :
  let c := Conf KMulti [(chars "a", Some (VInt (-5))); (chars "a", Some (VConf (Some (Conf KArray [([], Some (VBool true))])))); (chars "b", None)] in
  xml_back_and_forth true c =
    Some (TNode true [(chars "a", TStr (chars "-5")); (chars "a", TNode true [(chars "i", TStr (chars "true"))]); (chars "b", TNode true [])]).
Proof. reflexivity. Qed.
Example C62_typed_ex :
  let c := Conf KArray [([], Some (VConf (Some (Conf KMap [(chars "k", Some (VInt 12))]))))] in
  at_indices [0; 0] (conf_tree c) = Some (TInt 12) /\
  option_map (at_indices [0; 0]) (xml_back_and_forth true c) = Some (Some (TStr (chars "12"))).
Proof. split; reflexivity. Qed.

(* ---- C63: yaml ---- *)
(* nodes of a document without repeated keys come back as they are, scalars as text *)
Theorem C63_round_trip : forall real_text c, unique_keys (conf_tree c) ->
  yaml_tree (yaml_write real_text (Some c)) = yaml_view real_text (conf_tree c).
Proof. intros rt c U. cbn [yaml_write]. rewrite to_yaml_tree. apply ynorm_id. apply yaml_view_unique. exact U. Qed.
(* of repeated keys the last value counts; numbers and truth values read back *)
Theorem C63_typed : forall real_text c p,
  (forall t, lookup true p (conf_tree c) = Some t ->
     option_map shape (lookup true p (yaml_tree (yaml_write real_text (Some c)))) = Some (shape (yaml_view real_text t))) /\
  (forall z, lookup true p (conf_tree c) = Some (TInt z) -> int64 z ->
     exists s, lookup true p (yaml_tree (yaml_write real_text (Some c))) = Some (TStr s) /\ int_of_string s = Some z) /\
  (forall b, lookup true p (conf_tree c) = Some (TBool b) ->
     exists s, lookup true p (yaml_tree (yaml_write real_text (Some c))) = Some (TStr s) /\ bool_of_string s = Some b).
Proof.
  intros rt c p. cbn [yaml_write]. rewrite to_yaml_tree, ynorm_lookup.
  assert (Q : forall t, lookup true p (conf_tree c) = Some t -> lookup true p (yaml_view rt (conf_tree c)) = Some (yaml_view rt t)).
  { intros t H. rewrite yaml_view_lookup by (right; congruence). rewrite H. reflexivity. }
  split; [|split].
  - intros t H. rewrite (Q _ H). cbn [option_map]. rewrite ynorm_shape. reflexivity.
  - intros z H Z. rewrite (Q _ H). exists (int_to_string z). split; [reflexivity|].
    apply round_trip_plain. unfold int64 in Z. unfold int_min, int_max. lia.
  - intros b H. rewrite (Q _ H). exists (bool_text b). split; [reflexivity|]. apply bool_text_read.
Qed.
(* what is written is a document, unless the configuration is null *)
Theorem C63_readable : forall real_text c,
  (exists b, yaml_backend (yaml_write real_text (Some c)) = Some b /\ b_assoc b = is_assoc (ckind c)) /\
  yaml_backend (yaml_write real_text None) = None.
Proof.
  intros rt [k es]. split; [|reflexivity]. cbn [yaml_write ckind]. rewrite to_yaml_eq. destruct (is_assoc k); eexists; split; reflexivity.
Qed.
(* json keeps the first of repeated keys, yaml the last, xml all of them *)
Theorem C63_repeated_keys_refuted : exists c,
  json_tree (json_write None (Some c)) = TNode true [(chars "x", TInt 1)] /\
  yaml_tree (yaml_write (fun _ => []) (Some c)) = TNode true [(chars "x", TStr (chars "2"))] /\
  xml_back_and_forth false c = Some (TNode true [(chars "x", TStr (chars "1")); (chars "x", TStr (chars "2"))]).
Proof. exists (Conf KMulti [(chars "x", Some (VInt 1)); (chars "x", Some (VInt 2))]). repeat split. Qed.
(* a missing value of an array comes back as an empty map, not as a missing value *)
Theorem C63_null_refuted : exists c, conf_tree c = TNode false [([], TNone)] /\
  yaml_tree (yaml_write (fun _ => []) (Some c)) = TNode false [([], TNode true [])].
Proof. exists (Conf KArray [([], None)]). split; reflexivity. Qed.
Example C63_ex :
  let c := Conf KOrdered [(chars "b", Some (VInt 7)); (chars "a", Some (VConf (Some (Conf KArray [([], Some (VBool true)); ([], Some (VStr []))]))))] in
  unique_keys (conf_tree c) /\
  yaml_tree (yaml_write (fun _ => []) (Some c)) =
    TNode true [(chars "b", TStr (chars "7")); (chars "a", TNode false [([], TStr (chars "true")); ([], TStr [])])].
Proof. split; [|reflexivity]. cbn. repeat split; try discriminate. intros _. repeat constructor; cbn; intuition discriminate. Qed.

(* ---- C64: ini ---- *)
Lemma search_first {V} n : forall (l : list (str * V)) i, NoDup (map fst l) -> forall j v, nth_error l j = Some (n, v) ->
  search (seqb n) i l = Found (i + j) v.
Proof.
  induction l as [|[k w] t IH]; intros i N [|j] v H; try discriminate; cbn [nth_error search] in *.
  - injection H as -> ->. rewrite seqb_refl, Nat.add_0_r. reflexivity.
  - inversion N as [|? ? A D]; subst. replace (seqb n k) with false.
    + rewrite (IH (S i) D j v H). f_equal. lia.
    + symmetry. apply seqb_neq. intros ->. apply A. apply nth_error_In in H. apply (in_map fst _ _ H).
Qed.
Lemma first_nth {V} n : forall (l : list (str * V)), NoDup (map fst l) -> forall j v, nth_error l j = Some (n, v) -> first n l = Some v.
Proof.
  induction l as [|[k w] t IH]; intros N [|j] v H; try discriminate; cbn [nth_error first] in *.
  - injection H as -> ->. rewrite seqb_refl. reflexivity.
  - inversion N as [|? ? A D]; subst. replace (seqb n k) with false; [apply (IH D j v H)|].
    symmetry. apply seqb_neq. intros ->. apply A. apply nth_error_In in H. apply (in_map fst _ _ H).
Qed.
Theorem C64_contents : forall pick lines, let b := ini_document pick (ini_parse lines) in
  exists secs gl, b_keys b = map fst secs ++ map fst gl /\
    (* the sections, each once, by name *)
    ascending (map fst secs) /\
    (forall n, In n (map fst secs) <-> n <> [] /\ In n (map (fun l => fst (fst l)) lines)) /\
    (forall i n vs, nth_error secs i = Some (n, vs) ->
       b_at b i = Some (n, Section_ vs) /\ b_find b n = Found i (Section_ vs) /\
       (forall j, b_at (ini_section pick vs) j = option_map (fun e => (fst e, Value_ (snd e))) (nth_error vs j)) /\
       not_descending (map fst vs) /\ forall k, values_of k vs = line_values n k lines) /\
    (* then the values outside of sections, by name, equal ones as they came *)
    (forall i, b_at b (length secs + i) = option_map (fun e => (fst e, Value_ (snd e))) (nth_error gl i)) /\
    not_descending (map fst gl) /\ forall k, values_of k gl = line_values [] k lines.
Proof.
  intros pick lines b. destruct (ini_parse_spec lines) as (A & K & S & G & V). exists (sections (ini_parse lines)), (globals (ini_parse lines)).
  split; [reflexivity|]. split; [exact A|]. split; [exact K|]. split; [|split; [|split; [exact G|exact V]]].
  - intros i n vs H. pose proof (ascending_nodup _ A) as N. pose proof (first_nth n _ N i vs H) as F.
    assert (NE : n <> []) by (apply K; apply nth_error_In in H; apply (in_map fst _ _ H)).
    destruct (S n) as [S1 S2]. unfold section_values in S1, S2. rewrite F in S1, S2. split; [|split; [|split; [|split]]].
    + unfold b, ini_document. rewrite ini_at. unfold ini_entries. cbn [ini_secs]. rewrite nth_error_app1.
      * rewrite nth_error_map, H. reflexivity.
      * rewrite map_length. apply nth_error_Some. congruence.
    + unfold b, ini_document. cbn [b_find ini_backend]. rewrite (search_first n _ 0 N i vs H). reflexivity.
    + intros j. unfold ini_section. rewrite ini_at. unfold ini_entries. cbn [ini_secs map app]. apply nth_error_map.
    + exact S1.
    + apply S2. exact NE.
  - intros i. unfold b, ini_document. rewrite ini_at. unfold ini_entries. cbn [ini_secs].
    rewrite nth_error_app2 by (rewrite map_length; lia). rewrite map_length.
    replace (length (sections (ini_parse lines)) + i - length (sections (ini_parse lines))) with i by lia. apply nth_error_map.
Qed.
(* looking up a name in a section gives one of its values, if it has any *)
Theorem C64_lookup : forall pick lines n k i vs, n <> [] ->
  b_find (ini_document pick (ini_parse lines)) n = Found i (Section_ vs) ->
  match b_find (ini_section pick vs) k with
  | Found _ (Value_ v) => In v (line_values n k lines)
  | NotFound => line_values n k lines = []
  | _ => False
  end.
Proof.
  intros pick lines n k i vs NE H. destruct (ini_parse_spec lines) as (A & K & S & G & V).
  assert (VS : forall k, values_of k vs = line_values n k lines).
  { destruct (S n) as [_ S2]. specialize (S2 NE). cbn [b_find ini_document ini_backend] in H.
    destruct (search (seqb n) 0 (sections (ini_parse lines))) as [j s| |] eqn:E.
    - injection H as <- <-. apply search_sound in E as [_ E]. rewrite Nat.sub_0_r in E.
      unfold section_values in S2. rewrite (first_nth n _ (ascending_nodup _ A) j s E) in S2. exact S2.
    - destruct (mm_find pick n 0 (globals (ini_parse lines))) as [[? ?]|]; discriminate.
    - destruct (mm_find pick n 0 (globals (ini_parse lines))) as [[? ?]|]; discriminate. }
  unfold ini_section. cbn [b_find ini_backend search]. rewrite <- VS. destruct (mm_find pick k 0 vs) as [[j v]|] eqn:E.
  - apply mm_find_sound in E as [_ E]. unfold values_of. apply in_map_iff. exists (k, v). split; [reflexivity|].
    apply filter_In. split; [eapply nth_error_In; eauto|]. cbn [fst]. apply seqb_refl.
  - apply values_of_none. apply (mm_find_none pick k vs 0). exact E.
Qed.
(* a value outside of sections is hidden by a section of its name *)
Theorem C64_hidden_refuted : forall pick, exists lines k,
  line_values [] k lines <> [] /\ exists i vs, b_find (ini_document pick (ini_parse lines)) k = Found i (Section_ vs).
Proof.
  intros pick. exists [([], chars "a", chars "1"); (chars "a", chars "x", chars "2")], (chars "a").
  split; [discriminate|]. exists 0, [(chars "x", chars "2")]. reflexivity.
Qed.
Example C64_ex :
  let p := ini_parse [([], chars "z", chars "0"); (chars "t", chars "b", chars "1"); (chars "s", chars "k", chars "2"); (chars "t", chars "a", chars "3"); (chars "t", chars "b", chars "4")] in
  let b := ini_document (fun _ => 1) p in
  b_keys b = [chars "s"; chars "t"; chars "z"] /\
  b_find b (chars "t") = Found 1 (Section_ [(chars "a", chars "3"); (chars "b", chars "1"); (chars "b", chars "4")]) /\
  b_find (ini_section (fun _ => 1) [(chars "a", chars "3"); (chars "b", chars "1"); (chars "b", chars "4")]) (chars "b") = Found 2 (Value_ (chars "4")).
Proof. vm_compute. repeat split. Qed.

Print Assumptions C60_json.
Print Assumptions C60_xml.
Print Assumptions C60_yaml.
Print Assumptions C60_ini.
Print Assumptions C60_contents.
Print Assumptions C60_xml_no_root_refuted.
Print Assumptions C60_yaml_distinct_refuted.
Print Assumptions C61_lookup.
Print Assumptions C61_exact.
Print Assumptions C61_sorted.
Print Assumptions C61_nested_order_refuted.
Print Assumptions C61_not_finite_refuted.
Print Assumptions C61_utf8_refuted.
Print Assumptions C61_multi_refuted.
Print Assumptions C61_large_numbers_refuted.
Print Assumptions C62_round_trip.
Print Assumptions C62_typed.
Print Assumptions C62_array_refuted.
Print Assumptions C62_blank_text_refuted.
Print Assumptions C62_plain_refuted.
Print Assumptions C62_bool_as_string_refuted.
Print Assumptions C63_round_trip.
Print Assumptions C63_typed.
Print Assumptions C63_readable.
Print Assumptions C63_repeated_keys_refuted.
Print Assumptions C63_null_refuted.
Print Assumptions C64_contents.
Print Assumptions C64_lookup.
Print Assumptions C64_hidden_refuted.
