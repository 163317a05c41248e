(* C28-C35, C38: configs. *)
From Coq Require Import String Ascii List Bool Arith ZArith Lia Sorting.Sorted Permutation.
From Verif Require Import TokenModel ConfigModel ConfigSpec ConfigProofs ConfigCopy ConfigPath ConfigMerge ConfigBuild ConfigWf.
Import ListNotations.

(* the names a path consists of: the pieces between separators that are not
   empty *)
Definition names_of (p : path) : list str := nonempty_segments ascii (Ascii.eqb (p_sep p)) (p_str p).
Definition s_ (x : string) : str := list_ascii_of_string x.
Definition dot (x : string) : path := Path (s_ x) default_sep.
Definition pair_of (e : entry) : str * slot := (e_key e, e_val e).
Definition int (z : Z) : value := VInt z.
Definition obj (k : kind) (l : list (string * slot)) : conf := Conf k (map (fun e => (s_ (fst e), snd e)) l).
Definition sub (c : conf) : slot := Some (VConf (Some c)).

Lemma names_tok p : tokenize p = names_of p.
Proof. apply tokenize_spec. Qed.

(* ---- C38: iteration and lookup ---- *)
Lemma iterate_index b : map e_index (iterate b) = seq 0 (size b).
Proof.
  unfold iterate. rewrite map_map. erewrite map_ext; [apply map_id|]. intros i. unfold entry_at.
  destruct b as [c|]; [destruct (find_index c i)|]; reflexivity.
Qed.
Lemma find_from_spec k l : forall j,
  (exists a v b, l = a ++ (k, v) :: b /\ ~ In k (map fst a) /\ find_from j k l = (j + length a, v)) \/
  (~ In k (map fst l) /\ find_from j k l = (0, None)).
Proof.
  induction l as [|[k' v'] t IH]; intros j; cbn [find_from].
  - right. split; [intros []|reflexivity].
  - destruct (seqb k' k) eqn:E.
    + apply seqb_spec in E. subst. left. exists [], v', t. split; [reflexivity|]. split; [intros []|]. cbn. rewrite Nat.add_0_r. reflexivity.
    + apply seqb_neq in E. destruct (IH (S j)) as [(a & v & b & -> & Hn & ->)|[Hn ->]].
      * left. exists ((k', v') :: a), v, b. split; [reflexivity|]. split; [cbn; intros [H|H]; [congruence|exact (Hn H)]|]. cbn. f_equal. lia.
      * right. split; [cbn; intros [H|H]; [congruence|exact (Hn H)]|reflexivity].
Qed.
Lemma find_pos_single c p n : names_of p = [n] -> is_assoc (ckind c) = true ->
  (exists a v b, centries c = a ++ (n, Some v) :: b /\ ~ In n (map fst a) /\ find_pos (Some c) p = length a) \/
  (assoc n (centries c) = None /\ find_pos (Some c) p = size (Some c)).
Proof.
  intros Hp Ha. unfold find_pos, at_path. rewrite names_tok, Hp. cbn [resolve tok_has_next]. unfold find_key. rewrite Ha.
  destruct (find_from_spec n (centries c) 0) as [(a & [v|] & b & E & Hn & ->)|[Hn ->]].
  - left. exists a, v, b. auto.
  - right. cbn. split; [|reflexivity]. rewrite E, assoc_app.
    assert (Hx : existsb (fun e => seqb (fst e) n) a = false).
    { destruct (existsb (fun e => seqb (fst e) n) a) eqn:Hx; [|reflexivity]. apply existsb_exists in Hx as (e & Hi & He). apply seqb_spec in He.
      exfalso. apply Hn. rewrite <- He. apply in_map. exact Hi. }
    rewrite Hx, assoc_cons, seqb_refl. reflexivity.
  - right. cbn. split; [apply assoc_notin; exact Hn|reflexivity].
Qed.

(* C38: iteration visits the indices 0 .. size-1 once each, in order, with the
   key and value lookup by that index gives. *)
Theorem C38_iteration : forall b,
  map e_index (iterate b) = seq 0 (size b) /\ (forall e, In e (iterate b) -> e = entry_at b (e_index e)) /\
  (forall c, b = Some c -> map pair_of (iterate b) = centries c).
Proof.
  intros b. split; [apply iterate_index|]. split.
  - intros e Hi. apply in_map_iff in Hi as (i & <- & _). f_equal. unfold entry_at. destruct b as [c|]; [destruct (find_index c i)|]; reflexivity.
  - intros c ->. apply iterate_kv.
Qed.
Print Assumptions C38_iteration.
Example C38_iteration_ex : map pair_of (iterate (Some (obj KMap [("a", Some (int 1)); ("b", None)]%string))) = [(s_ "a", Some (int 1)); (s_ "b", None)].
Proof. reflexivity. Qed.

(* C38: find with a one-name path denotes the first entry with that key, and the
   end if that entry is null or missing. *)
Theorem C38_find_single : forall c p n, names_of p = [n] -> ckind c <> KArray ->
  (exists a v b, centries c = a ++ (n, Some v) :: b /\ ~ In n (map fst a) /\ find_pos (Some c) p = length a) \/
  (assoc n (centries c) = None /\ find_pos (Some c) p = size (Some c)).
Proof. intros c p n Hp Hk. apply find_pos_single; [exact Hp|]. destruct (ckind c); try reflexivity. congruence. Qed.
Print Assumptions C38_find_single.
Example C38_find_single_ex :
  let c := obj KMulti [("a", Some (int 1)); ("b", Some (int 2)); ("b", Some (int 3))]%string in
  names_of (dot ".b") = [s_ "b"] /\ ckind c <> KArray /\ find_pos (Some c) (dot ".b") = 1.
Proof. vm_compute. repeat split; discriminate. Qed.

(* C38: a lookup by path follows the names of the path through the objects. *)
Theorem C38_read_path : forall b p,
  (names_of p <> [] -> e_val (at_path b p) = cget b (names_of p)) /\
  (names_of p = [] -> e_val (at_path b p) = None).
Proof.
  intros b p. rewrite <- names_tok. split; [apply at_path_val|apply at_path_root].
Qed.
Print Assumptions C38_read_path.
Example C38_read_path_ex :
  let b := Some (obj KMap [("a", sub (obj KOrdered [("b", Some (int 7))]))]%string) in
  names_of (dot "..a.b.") = [s_ "a"; s_ "b"] /\ e_val (at_path b (dot "..a.b.")) = Some (int 7).
Proof. vm_compute. auto. Qed.

(* C38: the entry obtained has the last name as its key, and its index counts the
   entries of the config the other names lead to; if they lead to none, the entry
   is empty. *)
Definition parent (b : option conf) (ns : list str) : option conf :=
  match ns with
  | [] => b
  | _ => match cget b ns with Some (VConf c) => c | _ => None end
  end.
Lemma resolve_entry ns n : forall b,
  match parent b ns with
  | None => resolve b (ns ++ [n]) = no_entry
  | Some c => e_key (resolve b (ns ++ [n])) = n /\
      forall v, e_val (resolve b (ns ++ [n])) = Some v ->
        exists a z, centries c = a ++ (n, Some v) :: z /\ ~ In n (map fst a) /\ e_index (resolve b (ns ++ [n])) = length a
  end.
Proof.
  induction ns as [|m ns IH]; intros b.
  - cbn [parent app]. destruct b as [c|]; [|reflexivity]. cbn [resolve tok_has_next]. unfold find_key.
    destruct (is_assoc (ckind c)); [|split; [reflexivity|discriminate]].
    destruct (find_from_spec n (centries c) 0) as [(a & v & z & E & Hn & ->)|[Hn ->]]; [|split; [reflexivity|discriminate]].
    split; [reflexivity|]. cbn [e_val e_index]. intros w [= ->]. exists a, z. auto.
  - assert (P : parent b (m :: ns) = parent (object_of (bassoc b m)) ns).
    { cbn [parent]. rewrite cget_cons. destruct ns as [|k ns]; cbn [parent].
      - destruct (bassoc b m) as [[]|]; reflexivity.
      - destruct (bassoc b m) as [v|]; [rewrite vget_as_conf; reflexivity|]. rewrite cget_cons. reflexivity. }
    rewrite P. specialize (IH (object_of (bassoc b m))).
    assert (R : resolve b ((m :: ns) ++ [n]) = resolve (object_of (bassoc b m)) (ns ++ [n])).
    { cbn [app]. change (resolve b (m :: ns ++ [n])) with
        (match b with None => no_entry | Some c => let (i, v) := find_key c m in if tok_has_next (ns ++ [n]) then resolve (object_of v) (ns ++ [n]) else Entry i m v end).
      destruct b as [c|].
      - pose proof (find_key_snd c m) as F. destruct (find_key c m) as [i v]. cbn [snd] in F. rewrite F. destruct ns; reflexivity.
      - destruct ns; reflexivity. }
    rewrite R. exact IH.
Qed.
Theorem C38_read_entry : forall b p ns n, names_of p = ns ++ [n] ->
  match parent b ns with
  | None => at_path b p = no_entry
  | Some c => e_key (at_path b p) = n /\
      forall v, e_val (at_path b p) = Some v ->
        exists a z, centries c = a ++ (n, Some v) :: z /\ ~ In n (map fst a) /\ e_index (at_path b p) = length a
  end.
Proof. intros b p ns n H. unfold at_path. rewrite names_tok, H. apply resolve_entry. Qed.
Print Assumptions C38_read_entry.
Example C38_read_entry_ex :
  let c := obj KOrdered [("x", Some (int 5)); ("b", Some (int 7))]%string in
  let b := Some (obj KMap [("a", sub c)]%string) in
  names_of (dot "a.b") = [s_ "a"] ++ [s_ "b"] /\ parent b [s_ "a"] = Some c /\ at_path b (dot "a.b") = Entry 1 (s_ "b") (Some (int 7)).
Proof. vm_compute. auto. Qed.

(* C38: find of a nested path denotes an unrelated top-level entry. *)
Theorem C38_find_nested_refuted : exists b p i e,
  on wf b /\ e_val (at_path b p) = Some (int 7) /\ find_pos b p = i /\ nth_error (iterate b) i = Some e /\ e_key e = s_ "z" /\ e_val e = Some (int 1) /\
  names_of p = [s_ "y"; s_ "a"; s_ "b"] .
Proof.
  pose (b := Some (obj KOrdered [("z", Some (int 1)); ("y", sub (obj KMap [("a", sub (obj KMap [("b", Some (int 7))]))]))]%string)).
  exists b, (dot "y.a.b"). do 2 eexists. split; [|vm_compute; repeat split; reflexivity].
  assert (W1 : wf (obj KMap [("b", Some (int 7))]%string)) by (constructor; [repeat constructor|intros n c [H|[]]; discriminate]).
  assert (W2 : wf (obj KMap [("a", sub (obj KMap [("b", Some (int 7))]))]%string)).
  { constructor; [repeat constructor|]. intros n c [H|[]]; injection H as _ <-; exact W1. }
  constructor.
  - cbn. repeat constructor; cbn; intuition discriminate.
  - intros n c [H|[H|[]]]; [discriminate|]. injection H as _ <-. exact W2.
Qed.
Print Assumptions C38_find_nested_refuted.

(* ---- C28: the builder ---- *)
(* C28: every config obtained from the builder and the copying functions is well
   formed (sorted keys in maps, distinct keys in ordered maps, ...). *)
Theorem C28_made_configs_well_formed : forall b, made b -> on wf b.
Proof. exact made_wf. Qed.
Print Assumptions C28_made_configs_well_formed.
Example C28_made_ex : made (Some (obj KMap [("a", sub (obj KArray [(""%string, Some (int 1))]))]%string)).
Proof.
  apply (made_build KMap [OPut (s_ "a") (VConf (Some (obj KArray [(""%string, Some (int 1))])))]); [|reflexivity].
  intros o c [<-|[]] [= <-]. apply (made_build KArray [OAdd (int 1)]); [|reflexivity].
  intros o c [<-|[]]. discriminate.
Qed.

(* C28: map builder. The last put or remove of a key decides; iteration gives the
   live keys once each in increasing order. *)
Theorem C28_map_builder : forall ops, Forall keyed ops -> exists c,
  build KMap ops = Ok (Some c) /\ ckind c = KMap /\
  (forall n v, In (n, v) (map pair_of (iterate (Some c))) <-> exists w, v = Some w /\ last_put n ops None = Some w) /\
  StronglySorted slt (map e_key (iterate (Some c))) /\
  (forall n, plain_key n -> e_val (at_key (Some c) n) = last_put n ops None).
Proof.
  intros ops H. destruct (build_map ops H) as (es & E & S & N & A). exists (Conf KMap es). split; [exact E|]. split; [reflexivity|].
  assert (I : map pair_of (iterate (Some (Conf KMap es))) = es) by apply iterate_kv.
  assert (K : map e_key (iterate (Some (Conf KMap es))) = map fst es) by (rewrite <- I at 2; rewrite map_map; reflexivity).
  split; [|split].
  - intros n v. rewrite I. split.
    + intros Hi. pose proof (assoc_nodup n v es (slt_nodup _ S) Hi) as Ha. rewrite A in Ha. destruct v as [w|]; [eauto|]. exfalso. exact (N n Hi).
    + intros (w & -> & Hl). rewrite <- A in Hl. apply assoc_in. exact Hl.
  - rewrite K. exact S.
  - intros n Hn. rewrite at_key_plain by exact Hn. rewrite bassoc_assoc by reflexivity. apply A.
Qed.
Print Assumptions C28_map_builder.
Definition ops1 : list op :=
  [OPut (s_ "b") (int 1); OPut (s_ "a") (int 2); OPut (s_ "c") (int 3); OPut (s_ "b") (int 4); ORemove (s_ "a"); OPut (s_ "a") (int 5); ORemove (s_ "c"); OPut (s_ "x") (VConf None)].
Example C28_map_builder_ex : Forall keyed ops1 /\ build KMap ops1 = Ok (Some (obj KMap [("a", Some (int 5)); ("b", Some (int 4))]%string)).
Proof. split; [repeat constructor|reflexivity]. Qed.

(* C28: multimap builder. Under each key, the values put since the last remove,
   in order; keys in increasing order. *)
Theorem C28_multimap_builder : forall ops, Forall keyed ops -> exists c,
  build KMulti ops = Ok (Some c) /\ ckind c = KMulti /\
  (forall n, map e_val (filter (fun e => if list_eq_dec ascii_dec (e_key e) n then true else false) (iterate (Some c))) = map Some (live_puts n ops [])) /\
  StronglySorted sle (map e_key (iterate (Some c))) /\
  (forall n, plain_key n -> e_val (at_key (Some c) n) = match live_puts n ops [] with v :: _ => Some v | [] => None end).
Proof.
  intros ops H. destruct (build_multi ops H) as (es & E & S & A). exists (Conf KMulti es). split; [exact E|]. split; [reflexivity|].
  assert (I : map pair_of (iterate (Some (Conf KMulti es))) = es) by apply iterate_kv.
  assert (K : map e_key (iterate (Some (Conf KMulti es))) = map fst es) by (rewrite <- I at 2; rewrite map_map; reflexivity).
  split; [|split].
  - intros n. rewrite <- A. unfold vals_of. rewrite <- I at 2. clear.
    induction (iterate (Some (Conf KMulti es))) as [|e l IH]; [reflexivity|]. cbn [filter map]. unfold pair_of at 1. cbn [fst].
    rewrite seqb_dec. destruct (list_eq_dec ascii_dec (e_key e) n); cbn [map]; [f_equal|]; exact IH.
  - rewrite K. exact S.
  - intros n Hn. rewrite at_key_plain by exact Hn. rewrite bassoc_assoc by reflexivity. specialize (A n).
    assert (Hf : assoc n es = match vals_of n es with s :: _ => s | [] => None end).
    { clear. unfold vals_of. induction es as [|[k s] t IH]; [reflexivity|]. rewrite assoc_cons. cbn [filter fst]. destruct (seqb k n); [reflexivity|exact IH]. }
    rewrite Hf, A. destruct (live_puts n ops []); reflexivity.
Qed.
Print Assumptions C28_multimap_builder.
Example C28_multimap_builder_ex : Forall keyed ops1 /\
  build KMulti ops1 = Ok (Some (obj KMulti [("a", Some (int 5)); ("b", Some (int 1)); ("b", Some (int 4))]%string)).
Proof. split; [repeat constructor|reflexivity]. Qed.

(* C28: ordered map builder. Values as for the map; keys in the order of the puts
   that inserted them. *)
Theorem C28_ordered_builder : forall ops, Forall keyed ops -> exists c,
  build KOrdered ops = Ok (Some c) /\ ckind c = KOrdered /\
  (forall n v, In (n, v) (map pair_of (iterate (Some c))) <-> exists w, v = Some w /\ last_put n ops None = Some w) /\
  NoDup (map e_key (iterate (Some c))) /\
  StronglySorted (earlier ops) (map e_key (iterate (Some c))) /\
  (forall n, plain_key n -> e_val (at_key (Some c) n) = last_put n ops None).
Proof.
  intros ops H. destruct (build_ordered ops H) as (es & E & D & N & A & _ & S). exists (Conf KOrdered es). split; [exact E|]. split; [reflexivity|].
  assert (I : map pair_of (iterate (Some (Conf KOrdered es))) = es) by apply iterate_kv.
  assert (K : map e_key (iterate (Some (Conf KOrdered es))) = map fst es) by (rewrite <- I at 2; rewrite map_map; reflexivity).
  split; [|rewrite K; split; [exact D|split; [exact S|]]].
  - intros n v. rewrite I. split.
    + intros Hi. pose proof (assoc_nodup n v es D Hi) as Ha. rewrite A in Ha. destruct v as [w|]; [eauto|]. exfalso. exact (N n Hi).
    + intros (w & -> & Hl). rewrite <- A in Hl. apply assoc_in. exact Hl.
  - intros n Hn. rewrite at_key_plain by exact Hn. rewrite bassoc_assoc by reflexivity. apply A.
Qed.
Print Assumptions C28_ordered_builder.
Example C28_ordered_builder_ex : Forall keyed ops1 /\
  build KOrdered ops1 = Ok (Some (obj KOrdered [("b", Some (int 4)); ("a", Some (int 5))]%string)) /\
  born ops1 (s_ "b") 0 /\ born ops1 (s_ "a") 5.
Proof.
  split; [repeat constructor|]. split; [reflexivity|]. unfold born. split; (split; [eexists; split; [|reflexivity]; discriminate|]; split; [reflexivity|]);
  intros j Hj; do 9 (destruct j as [|j]; [try lia; discriminate|]); destruct j; discriminate.
Qed.

(* C28: array builder. A stack of values; popping an empty array is undefined. *)
Theorem C28_array_builder : forall ops, Forall listed ops ->
  (exists xs, stack ops xs /\ exists c, build KArray ops = Ok (Some c) /\ ckind c = KArray /\ map e_val (iterate (Some c)) = map Some xs) \/
  (exists pre post, ops = pre ++ OPop :: post /\ stack pre [] /\ build KArray ops = UB).
Proof.
  intros ops H. destruct (build_array ops H) as [(xs & Hs)|(E & pre & xs & post & -> & Hs & ->)].
  - left. exists xs. split; [exact Hs|]. exists (Conf KArray (cells xs)). split; [apply build_array_ok; exact Hs|]. split; [reflexivity|].
    assert (I : map pair_of (iterate (Some (Conf KArray (cells xs)))) = cells xs) by apply iterate_kv.
    apply (f_equal (map snd)) in I. rewrite map_map in I. unfold pair_of in I. cbn [snd] in I. etransitivity; [exact I|]. unfold cells. rewrite map_map. reflexivity.
  - right. exists pre, post. auto.
Qed.
Print Assumptions C28_array_builder.
Example C28_array_builder_ex : Forall listed [OAdd (int 1); OAdd (int 2); OPop; OAdd (int 3)] /\ stack [OAdd (int 1); OAdd (int 2); OPop; OAdd (int 3)] [int 1; int 3].
Proof.
  split; [repeat constructor|]. apply (st_add [OAdd (int 1); OAdd (int 2); OPop] [int 1]); [discriminate|].
  apply (st_pop [OAdd (int 1); OAdd (int 2)] [int 1] (int 2)). apply (st_add [OAdd (int 1)] [int 1]); [discriminate|].
  apply (st_add [] []); [discriminate|constructor].
Qed.

(* C28: a call that does not fit the kind of the config throws. *)
Theorem C28_mixed_calls_throw : forall k ops o,
  (k <> KArray -> Forall keyed ops /\ match o with OAdd v => real_value v | OPop => True | _ => False end) ->
  (k = KArray -> (exists xs, stack ops xs) /\ match o with OPut _ v => real_value v | ORemove _ => True | _ => False end) ->
  build k (ops ++ [o]) = Throw.
Proof.
  intros k ops o H1 H2. apply build_mixed; destruct k; cbn; try discriminate; try (intros _); try (apply H1; discriminate); try (apply H2; reflexivity).
Qed.
Print Assumptions C28_mixed_calls_throw.
Example C28_mixed_calls_ex : build KMap ([OPut (s_ "a") (int 1)] ++ [OPop]) = Throw /\ build KArray ([OAdd (int 1)] ++ [ORemove (s_ "a")]) = Throw.
Proof. split; reflexivity. Qed.

(* ---- C35: clone ---- *)
Theorem C35_clone_equal : forall b, on wf b -> clone b = Ok b /\ shallow_copy b = Ok b.
Proof. intros b H. split; [apply clone_id; [lia|exact H]|apply shallow_id; exact H]. Qed.
Print Assumptions C35_clone_equal.
Theorem C35_clone_any_made : forall b, made b -> clone b = Ok b.
Proof. intros b H. apply C35_clone_equal. apply made_wf. exact H. Qed.
Print Assumptions C35_clone_any_made.
Example C35_clone_ex : let b := Some (obj KMulti [("a", sub (obj KArray [(""%string, Some (VConf None)); (""%string, Some (int 1))])); ("a", None)]%string) in
  clone b = Ok b.
Proof. reflexivity. Qed.

(* ---- C32: filters ---- *)
Theorem C32_filters_partition : forall c names, wf c -> ckind c <> KArray ->
  exists cw cb, with_whitelist (Some c) names = Ok (Some cw) /\ with_blacklist (Some c) names = Ok (Some cb) /\
    ckind cw = ckind c /\ ckind cb = ckind c /\
    sublist (centries cw) (centries c) /\ sublist (centries cb) (centries c) /\
    (forall n v, In (n, v) (centries cw) <-> In (n, v) (centries c) /\ v <> None /\ In n names) /\
    (forall n v, In (n, v) (centries cb) <-> In (n, v) (centries c) /\ v <> None /\ ~ In n names) /\
    Permutation (centries cw ++ centries cb) (filter (fun e => match snd e with Some _ => true | None => false end) (centries c)).
Proof.
  intros [k es] names Hw Hk. assert (Ha : is_assoc k = true) by (destruct k; cbn in *; congruence).
  inversion Hw as [? ? Hok _]; subst. unfold with_whitelist, with_blacklist. rewrite !filter_spec by assumption.
  do 2 eexists. split; [reflexivity|]. split; [reflexivity|]. split; [reflexivity|]. split; [reflexivity|]. cbn [centries].
  split; [apply sublist_filter|]. split; [apply sublist_filter|].
  assert (Hex : forall n, existsb (seqb n) names = true <-> In n names).
  { intros n. rewrite existsb_exists. split; [intros (x & Hx & Hn); apply seqb_spec in Hn; subst; exact Hx|intros Hi; exists n; split; [exact Hi|apply seqb_refl]]. }
  split; [|split].
  - intros n v. rewrite filter_In. unfold nonnull. cbn [fst snd]. rewrite <- Hex. destruct v; destruct (existsb (seqb n) names); cbn; intuition congruence.
  - intros n v. rewrite filter_In. unfold nonnull. cbn [fst snd]. rewrite <- Hex. destruct v; destruct (existsb (seqb n) names); cbn; intuition congruence.
  - clear. change (fun e : str * slot => match snd e with Some _ => true | None => false end) with nonnull.
    induction es as [|[n [v|]] t IH]; [constructor| |exact IH]. cbn [filter snd]. unfold nonnull at 1 3. cbn [snd andb].
    cbn [fst]. destruct (existsb (seqb n) names); cbn [eqb].
    + cbn [app]. apply perm_skip. exact IH.
    + symmetry. eapply Permutation_trans; [|apply Permutation_middle]. apply perm_skip. symmetry. exact IH.
Qed.
Print Assumptions C32_filters_partition.
Example C32_filters_ex : let c := obj KMulti [("a", Some (int 1)); ("a", Some (int 2)); ("b", Some (int 3))]%string in
  wf c /\ ckind c <> KArray /\ with_whitelist (Some c) [s_ "a"; s_ "z"] = Ok (Some (obj KMulti [("a", Some (int 1)); ("a", Some (int 2))]%string)) /\
  with_blacklist (Some c) [s_ "a"; s_ "z"] = Ok (Some (obj KMulti [("b", Some (int 3))]%string)).
Proof.
  cbv zeta. split; [|split; [discriminate|split; reflexivity]]. constructor.
  - assert (Hab : slt (s_ "a") (s_ "b")) by (apply slt_head; reflexivity).
    cbn. repeat constructor; try (right; reflexivity); left; exact Hab.
  - intros n c [H|[H|[H|[]]]]; discriminate.
Qed.
Example C32_filter_array_throws : forall es names, with_whitelist (Some (Conf KArray es)) names = Throw /\ with_blacklist (Some (Conf KArray es)) names = Throw.
Proof. split; reflexivity. Qed.

(* ---- C29: with_value ---- *)
(* C29: in a config without duplicate keys, unless an array lies on the way, the
   path now reads v (and below it, what is inside v); paths that diverge from it
   read as before; what lies on the way is an object; the result is of the same
   kind (a map for the null config). *)
Theorem C29_with_value : forall b p v, names_of p <> [] -> on wf b -> on single b -> on_value wf v -> on_value single v ->
  (forall q a, proper_prefix q (names_of p) -> cget b q = Some a -> ~ is_array a) ->
  exists c, with_value b p v = Ok c /\
    e_val (at_path (Some c) p) = Some v /\
    (forall q, cget (Some c) (names_of p ++ q) = vget v q) /\
    (forall q, diverges (names_of p) q -> cget (Some c) q = cget b q) /\
    (forall q, proper_prefix q (names_of p) -> exists o, cget (Some c) q = Some o /\ object o) /\
    ckind c = match b with Some c0 => ckind c0 | None => KMap end.
Proof.
  intros b p v Ht Hw Hs Hvw Hvs Ha. destruct (with_spec (names_of p) b v Ht Hw Hs Hvw Hvs Ha) as (c & E & (P1 & P2 & P3) & _ & _ & K).
  exists c. split; [unfold with_value; rewrite names_tok; unfold copy_value; rewrite E; reflexivity|].
  split; [rewrite at_path_val; rewrite names_tok; [|exact Ht]; specialize (P1 []); rewrite app_nil_r in P1; exact P1|].
  split; [exact P1|]. split; [exact P2|]. split; [exact P3|]. exact K.
Qed.
Print Assumptions C29_with_value.
Definition tree1 : conf := obj KMap [("a", sub (obj KMap [("x", Some (int 1))])); ("b", Some (int 2))]%string.
Lemma tree1_wf : wf tree1.
Proof.
  constructor; [assert (Hab : slt (s_ "a") (s_ "b")) by (apply slt_head; reflexivity); cbn; repeat constructor; exact Hab|].
  intros n c [H|[H|[]]]; [|discriminate]. injection H as _ <-. constructor; [repeat constructor|]. intros m d [H|[]]; discriminate.
Qed.
Lemma tree1_single : single tree1.
Proof.
  constructor; [intros _; repeat constructor; cbn; intuition discriminate|].
  intros n c [H|[H|[]]]; [|discriminate]. injection H as _ <-. constructor; [intros _; repeat constructor; cbn; tauto|]. intros m d [H|[]]; discriminate.
Qed.
Example C29_with_value_ex : on wf (Some tree1) /\ on single (Some tree1) /\ names_of (dot "a.y.z") <> [] /\
  with_value (Some tree1) (dot "a.y.z") (int 9) =
    Ok (obj KMap [("a", sub (obj KMap [("x", Some (int 1)); ("y", sub (obj KMap [("z", Some (int 9))]))])); ("b", Some (int 2))]%string).
Proof. split; [exact tree1_wf|]. split; [exact tree1_single|]. split; [discriminate|]. reflexivity. Qed.
(* C29: an array on the way makes with_value throw. *)
Theorem C29_array_on_the_way_throws : forall b p v q a, on wf b -> on single b ->
  proper_prefix q (names_of p) -> cget b q = Some a -> is_array a -> with_value b p v = Throw.
Proof.
  intros b p v q a Hw Hs Hq Hc Ha. unfold with_value. rewrite names_tok. unfold copy_value. rewrite (with_throw _ _ _ q a) by assumption. reflexivity.
Qed.
Print Assumptions C29_array_on_the_way_throws.
Example C29_array_ex : with_value (Some (obj KMap [("a", sub (obj KArray []))]%string)) (dot "a.x") (int 1) = Throw.
Proof. reflexivity. Qed.
(* C29: without the restriction to distinct keys: setting a key that occurs twice
   in a multimap leaves the second entry null. *)
Theorem C29_with_value_multimap_refuted : exists b p c, on wf b /\ names_of p = [s_ "a"] /\
  map pair_of (iterate b) = [(s_ "a", Some (int 1)); (s_ "a", Some (int 2))] /\
  with_value b p (int 5) = Ok c /\ map pair_of (iterate (Some c)) = [(s_ "a", Some (int 5)); (s_ "a", None)].
Proof.
  exists (Some (obj KMulti [("a", Some (int 1)); ("a", Some (int 2))]%string)), (dot "a"). eexists.
  split; [|vm_compute; repeat split; reflexivity]. constructor; [|intros n c [H|[H|[]]]; discriminate].
  cbn. constructor; [repeat constructor|]. constructor; [right; reflexivity|constructor].
Qed.
Print Assumptions C29_with_value_multimap_refuted.
(* C29: without the restriction to non-root paths: the value is put under the
   empty key, where no path finds it. *)
Theorem C29_with_value_root_refuted : exists b p c, on wf b /\ on single b /\ names_of p = [] /\
  with_value b p (int 5) = Ok c /\ e_val (at_path (Some c) p) = None /\ map pair_of (iterate (Some c)) = [([], Some (int 5))].
Proof. exists None, (dot "."). eexists. split; [exact I|]. split; [exact I|]. vm_compute. repeat split; reflexivity. Qed.
Print Assumptions C29_with_value_root_refuted.

(* ---- C30: without_path ---- *)
Theorem C30_without_path : forall b p, names_of p <> [] -> on wf b -> on single b ->
  (forall q v, proper_prefix q (names_of p) -> cget b q = Some v -> object v) ->
  exists c, without_path b p = Ok (Some c) /\
    e_val (at_path (Some c) p) = None /\
    (forall q, prefix (names_of p) q -> cget (Some c) q = None) /\
    (forall q, diverges (names_of p) q -> cget (Some c) q = cget b q) /\
    (forall q, proper_prefix q (names_of p) ->
       match cget b q with
       | Some v => exists v', cget (Some c) q = Some v' /\ object v'
       | None => cget (Some c) q = None
       end) /\
    option_map ckind b = Some (ckind c).
Proof.
  intros b p Ht Hw Hs Hway. destruct (without_spec (names_of p) b Ht Hw Hs Hway) as (c & E & (_ & _ & P1 & P2 & P3) & K).
  exists c. split; [unfold without_path; rewrite names_tok; exact E|].
  split; [rewrite at_path_val; rewrite names_tok; [|exact Ht]; apply P1; exists []; rewrite app_nil_r; reflexivity|]. auto.
Qed.
Print Assumptions C30_without_path.
Example C30_without_path_ex : on wf (Some tree1) /\ on single (Some tree1) /\ names_of (dot "a.x") <> [] /\
  (forall q v, proper_prefix q (names_of (dot "a.x")) -> cget (Some tree1) q = Some v -> object v) /\
  without_path (Some tree1) (dot "a.x") = Ok (Some (obj KMap [("a", sub (obj KMap [])); ("b", Some (int 2))]%string)).
Proof.
  split; [exact tree1_wf|]. split; [exact tree1_single|]. split; [discriminate|]. split; [|reflexivity].
  intros q v (n & r & H) E. destruct q as [|q0 [|q1 [|q2 q]]].
  - injection E as <-. discriminate.
  - cbn in H. injection H as <- _ _. vm_compute in E. injection E as <-. discriminate.
  - cbn in H. destruct q1; discriminate.
  - discriminate.
Qed.
(* C30: a path that leads through a scalar replaces the scalar by a null config. *)
Theorem C30_without_path_scalar_refuted : exists b p c, on wf b /\ on single b /\
  e_val (at_path b (dot "a")) = Some (int 1) /\ names_of p = [s_ "a"; s_ "b"] /\ e_val (at_path b p) = None /\
  without_path b p = Ok (Some c) /\ e_val (at_path (Some c) (dot "a")) = Some (VConf None).
Proof.
  exists (Some (obj KMap [("a", Some (int 1))]%string)), (dot "a.b"). eexists.
  split; [constructor; [repeat constructor|intros n c [H|[]]; discriminate]|].
  split; [constructor; [intros _; repeat constructor; intros []|intros n c [H|[]]; discriminate]|].
  vm_compute. repeat split; reflexivity.
Qed.
Print Assumptions C30_without_path_scalar_refuted.

(* ---- C31: with_only_path ---- *)
Theorem C31_with_only_path : forall b p r, names_of p <> [] -> on wf b -> on single b -> with_only_path b p = Ok r ->
  (r = None <-> e_val (at_path b p) = None) /\
  (forall q, prefix (names_of p) q -> cget r q = cget b q) /\
  (forall q, diverges (names_of p) q -> cget r q = None) /\
  (forall q, proper_prefix q (names_of p) -> r <> None -> exists v, cget r q = Some v /\ object v).
Proof.
  intros b p r Ht Hw Hs H. unfold with_only_path in H. rewrite names_tok in H.
  destruct (only_spec (names_of p) b r Ht Hw Hs H) as ((P1 & P2 & P3 & P4) & _ & _).
  split; [rewrite at_path_val; rewrite names_tok; [exact P1|exact Ht]|]. auto.
Qed.
Print Assumptions C31_with_only_path.
Theorem C31_with_only_path_succeeds : forall b p v, names_of p <> [] -> on wf b -> on single b -> e_val (at_path b p) = Some v ->
  exists r, with_only_path b p = Ok (Some r).
Proof.
  intros b p v Ht Hw Hs H. assert (H' := H). rewrite at_path_val in H'; rewrite names_tok in *; [|exact Ht].
  destruct (only_ok (names_of p) b v Ht Hw Hs H') as (r & E).
  assert (E' : with_only_path b p = Ok r) by (unfold with_only_path; rewrite names_tok; exact E).
  destruct r as [r|]; [eauto|]. exfalso. destruct (C31_with_only_path b p None Ht Hw Hs E') as (P & _).
  destruct P as [P _]. rewrite (P eq_refl) in H. discriminate.
Qed.
Print Assumptions C31_with_only_path_succeeds.
Example C31_with_only_path_ex : on wf (Some tree1) /\ on single (Some tree1) /\
  with_only_path (Some tree1) (dot "a.x") = Ok (Some (obj KMap [("a", sub (obj KMap [("x", Some (int 1))]))]%string)) /\
  with_only_path (Some tree1) (dot "b.x") = Ok None.
Proof. split; [exact tree1_wf|]. split; [exact tree1_single|]. split; reflexivity. Qed.

(* ---- C33: merging ---- *)
(* hi has priority over lo *)
Definition merges (hi lo : option conf) (m : conf) : Prop :=
  merged_with hi lo PLeft = Ok m \/ merged_with lo hi PRight = Ok m.
(* configs whose merge is a plain map: well formed, without multimaps, keys are
   single names *)
Theorem C33_merge_paths : forall hi lo m p, p <> [] -> fine hi -> fine lo -> merges hi lo m ->
  (forall hc lc, cget hi p = Some (VConf hc) -> cget lo p = Some (VConf lc) -> object (VConf hc) -> object (VConf lc) ->
     exists m', merges hc lc m' /\ cget (Some m) p = Some (VConf (Some m'))) /\
  (forall v, cget hi p = Some v -> (forall w, cget lo p = Some w -> ~ (object v /\ object w)) -> cget (Some m) p = Some v) /\
  (cget hi p = None -> ~ blocked hi p -> cget (Some m) p = cget lo p) /\
  (cget hi p = None -> blocked hi p -> cget (Some m) p = None).
Proof.
  intros hi lo m p Hp Hh Hl Hm. assert (E : merged_with hi lo PLeft = Ok m) by (destruct Hm as [E|E]; exact E).
  destruct (merge_paths p hi lo m Hp Hh Hl E) as (P1 & P2 & P3 & P4). split; [|auto].
  intros hc lc H1 H2 H3 H4. destruct (P1 hc lc H1 H2 H3 H4) as (m' & M1 & M2). exists m'. split; [left; exact M1|exact M2].
Qed.
Print Assumptions C33_merge_paths.
(* C33: the merge succeeds if in addition no entry is null and both sides are
   objects or null configs; the result is such a config again, a plain map. *)
Theorem C33_merge_succeeds : forall hi lo, fine hi -> fine lo -> on solid hi -> on solid lo ->
  (forall c, hi = Some c -> ckind c <> KArray) -> (forall c, lo = Some c -> ckind c <> KArray) ->
  exists m, merged_with hi lo PLeft = Ok m /\ merged_with lo hi PRight = Ok m /\ fine (Some m) /\ solid m /\ ckind m = KMap.
Proof.
  intros hi lo Hh Hl Sh Sl Kh Kl.
  assert (A : forall b, (forall c, b = Some c -> ckind c <> KArray) -> null_or_assoc b = true).
  { intros [c|] H; [|reflexivity]. specialize (H c eq_refl). cbn. destruct (ckind c); try reflexivity. congruence. }
  destruct (merge_total (S (nodes_b hi)) hi lo) as (m & Hm); auto.
  assert (E : merged_with hi lo PLeft = Ok m) by exact Hm.
  exists m. split; [exact E|]. split; [exact Hm|]. split; [eapply merge_fine; [exact Hh|exact Hl|exact E]|].
  split; [exact (merge_solid hi lo m Hh Hl Sh Sl E)|]. destruct (merge_eq hi lo m Hh Hl E) as (_ & K & _). exact K.
Qed.
Print Assumptions C33_merge_succeeds.
(* C33: nothing of the two arguments is dropped or invented at the top level *)
Theorem C33_merge_keys : forall hi lo m n, fine hi -> fine lo -> merges hi lo m ->
  (exists v, cget (Some m) [n] = Some v) <-> (exists v, cget hi [n] = Some v) \/ (exists v, cget lo [n] = Some v).
Proof.
  intros hi lo m n Hh Hl Hm. assert (E : merged_with hi lo PLeft = Ok m) by (destruct Hm as [E|E]; exact E).
  destruct (merge_eq hi lo m Hh Hl E) as (_ & _ & Hb & _).
  assert (C : forall b, cget b [n] = bassoc b n) by (intros b; rewrite cget_cons; cbn [vget]; destruct (bassoc b n); reflexivity).
  rewrite !C, Hb. destruct (bassoc hi n) as [v|], (bassoc lo n) as [w|]; cbn; split; intros; eauto.
  destruct H as [(x & H)|(x & H)]; discriminate.
Qed.
Print Assumptions C33_merge_keys.
Definition tree2 : conf := obj KOrdered [("b", Some (int 8)); ("a", sub (obj KMap [("x", Some (int 3)); ("y", Some (int 4))]))]%string.
Lemma tree2_wf : wf tree2.
Proof.
  constructor; [repeat constructor; cbn; intuition discriminate|].
  intros n c [H|[H|[]]]; [discriminate|]. injection H as _ <-. constructor; [assert (Hab : slt (s_ "x") (s_ "y")) by (apply slt_head; reflexivity); cbn; repeat constructor; exact Hab|].
  intros m d [H|[H|[]]]; discriminate.
Qed.
Ltac key := split; [discriminate|vm_compute; intuition discriminate].
Lemma tree1_fine : fine (Some tree1).
Proof.
  split; [exact tree1_wf|]. split; cbn [on].
  - constructor; [discriminate|]. intros n c [H|[H|[]]]; [|discriminate]. injection H as _ <-. constructor; [discriminate|]. intros m d [H|[]]; discriminate.
  - constructor; [intros _ n v [H|[H|[]]]; injection H as <- _; key|]. intros n c [H|[H|[]]]; [|discriminate]. injection H as _ <-.
    constructor; [intros _ m v [H|[]]; injection H as <- _; key|]. intros m d [H|[]]; discriminate.
Qed.
Lemma tree2_fine : fine (Some tree2).
Proof.
  split; [exact tree2_wf|]. split; cbn [on].
  - constructor; [discriminate|]. intros n c [H|[H|[]]]; [discriminate|]. injection H as _ <-. constructor; [discriminate|]. intros m d [H|[H|[]]]; discriminate.
  - constructor; [intros _ n v [H|[H|[]]]; injection H as <- _; key|]. intros n c [H|[H|[]]]; [discriminate|]. injection H as _ <-.
    constructor; [intros _ m v [H|[H|[]]]; injection H as <- _; key|]. intros m d [H|[H|[]]]; discriminate.
Qed.
Example C33_merge_ex : fine (Some tree1) /\ fine (Some tree2) /\
  merges (Some tree1) (Some tree2) (obj KMap [("a", sub (obj KMap [("x", Some (int 1)); ("y", Some (int 4))])); ("b", Some (int 2))]%string) /\
  merges (Some tree2) (Some tree1) (obj KMap [("a", sub (obj KMap [("x", Some (int 3)); ("y", Some (int 4))])); ("b", Some (int 8))]%string).
Proof. split; [exact tree1_fine|]. split; [exact tree2_fine|]. split; left; reflexivity. Qed.

(* C33: keys that contain the separator are dropped, and make the merge throw if
   both sides have them. *)
Theorem C33_merge_separator_refuted : exists a b m, on wf a /\ on mono a /\ on solid a /\
  map pair_of (iterate a) = [(s_ "x.y", Some (int 1))] /\ merged_with a None PLeft = Ok m /\ iterate (Some m) = [] /\
  on wf b /\ merged_with a b PLeft = Throw.
Proof.
  exists (Some (obj KMap [("x.y", Some (int 1))]%string)), (Some (obj KMap [("x.y", Some (int 2))]%string)). eexists.
  assert (W : forall z, wf (obj KMap [("x.y", Some (int z))]%string)) by (intros z; constructor; [repeat constructor|intros n c [H|[]]; discriminate]).
  split; [apply W|]. split; [constructor; [discriminate|intros n c [H|[]]; discriminate]|].
  split; [constructor; [intros _ n [H|[]]; discriminate|intros n c [H|[]]; discriminate]|].
  split; [reflexivity|]. split; [vm_compute; reflexivity|]. split; [reflexivity|]. split; [apply W|]. reflexivity.
Qed.
Print Assumptions C33_merge_separator_refuted.
(* C33: merging two multimaps takes a common key twice from the first side. *)
Theorem C33_merge_multimap_refuted : exists a b m, on wf a /\ on wf b /\ on plain a /\ on plain b /\
  map pair_of (iterate a) = [(s_ "k", Some (int 1))] /\ map pair_of (iterate b) = [(s_ "k", Some (int 2))] /\
  merged_with a b PLeft = Ok m /\ map pair_of (iterate (Some m)) = [(s_ "k", Some (int 1)); (s_ "k", Some (int 1))].
Proof.
  exists (Some (obj KMulti [("k", Some (int 1))]%string)), (Some (obj KMulti [("k", Some (int 2))]%string)). eexists.
  assert (W : forall z, wf (obj KMulti [("k", Some (int z))]%string)) by (intros z; constructor; [repeat constructor|intros n c [H|[]]; discriminate]).
  assert (P : forall z, plain (obj KMulti [("k", Some (int z))]%string)).
  { intros z. constructor; [intros _ n v [H|[]]; injection H as <- _; key|intros n c [H|[]]; discriminate]. }
  split; [apply W|]. split; [apply W|]. split; [apply P|]. split; [apply P|]. vm_compute. repeat split; reflexivity.
Qed.
Print Assumptions C33_merge_multimap_refuted.
(* C33: a null entry under a common key makes the merge throw. *)
Theorem C33_merge_null_entry_refuted : exists a b, fine a /\ fine b /\
  map pair_of (iterate a) = [(s_ "k", Some (int 1))] /\ map pair_of (iterate b) = [(s_ "k", None)] /\ merged_with a b PLeft = Throw.
Proof.
  exists (Some (obj KMap [("k", Some (int 1))]%string)), (Some (obj KMap [("k", None)]%string)).
  split; [|split; [|vm_compute; repeat split; reflexivity]]; (split; [|split]).
  1,4: constructor; [repeat constructor|intros n c [H|[]]; discriminate].
  1,3: constructor; [discriminate|intros n c [H|[]]; discriminate].
  all: constructor; [intros _ n v [H|[]]; injection H as <- _; key|intros n c [H|[]]; discriminate].
Qed.
Print Assumptions C33_merge_null_entry_refuted.

(* ---- C34: algebra ---- *)
(* tidy: plain maps (arrays may occur as values) without null entries, keys are
   single names; the null config counts. *)
Theorem C34_idempotent : forall c, tidy (Some c) -> merged_with (Some c) (Some c) PLeft = Ok c /\ merged_with (Some c) (Some c) PRight = Ok c.
Proof.
  intros c T. destruct (tidy_merge _ _ T T) as (E & _). rewrite merge_idem in E by exact T. split; exact E.
Qed.
Print Assumptions C34_idempotent.
Lemma tidy_null : tidy None.
Proof. repeat split. Qed.
Lemma tidy_empty : tidy (Some (Conf KMap [])).
Proof.
  split; [split; [|split]|split; [|split; [|reflexivity]]]; constructor; auto; try (intros ? ? []); try discriminate; try (intros []); constructor.
Qed.
Theorem C34_neutral : forall c e, tidy (Some c) -> e = None \/ e = Some (Conf KMap []) ->
  merged_with (Some c) e PLeft = Ok c /\ merged_with e (Some c) PLeft = Ok c /\
  merged_with (Some c) e PRight = Ok c /\ merged_with e (Some c) PRight = Ok c.
Proof.
  intros c e T He. assert (Te : tidy e) by (destruct He as [->| ->]; [exact tidy_null|exact tidy_empty]).
  assert (Hb : forall n, bassoc e n = None) by (destruct He as [->| ->]; reflexivity).
  destruct (tidy_merge _ _ T Te) as (E1 & _). rewrite merge_neutral_r in E1 by auto.
  destruct (tidy_merge _ _ Te T) as (E2 & _). rewrite merge_neutral_l in E2 by auto.
  split; [exact E1|]. split; [exact E2|]. split; [exact E2|exact E1].
Qed.
Print Assumptions C34_neutral.
Theorem C34_associative : forall a b c, tidy a -> tidy b -> tidy c -> no_conflict a b c ->
  exists ab bc m, merged_with a b PLeft = Ok ab /\ merged_with b c PLeft = Ok bc /\
    merged_with (Some ab) c PLeft = Ok m /\ merged_with a (Some bc) PLeft = Ok m.
Proof.
  intros a b c Ta Tb Tc Hn. destruct (tidy_merge a b Ta Tb) as (E1 & T1 & _). destruct (tidy_merge b c Tb Tc) as (E2 & T2 & _).
  destruct (tidy_merge _ c T1 Tc) as (E3 & _). destruct (tidy_merge a _ Ta T2) as (E4 & _).
  exists (M a b), (M b c), (M (Some (M a b)) c). split; [exact E1|]. split; [exact E2|]. split; [exact E3|].
  rewrite merge_assoc by assumption. exact E4.
Qed.
Print Assumptions C34_associative.
Lemma tree1_tidy : tidy (Some tree1).
Proof.
  split; [exact tree1_fine|]. split; [|split; [|reflexivity]]; cbn [on].
  - constructor; [intros _ n [H|[H|[]]]; discriminate|]. intros n c [H|[H|[]]]; [|discriminate]. injection H as _ <-. constructor; [intros _ m [H|[]]; discriminate|]. intros m d [H|[]]; discriminate.
  - constructor; [auto|]. intros n c [H|[H|[]]]; [|discriminate]. injection H as _ <-. constructor; [auto|]. intros m d [H|[]]; discriminate.
Qed.
Definition leaf (z : Z) : conf := obj KMap [("a", Some (int z))]%string.
Lemma leaf_tidy z : tidy (Some (leaf z)).
Proof.
  split; [split; [|split]|split; [|split; [|reflexivity]]]; constructor; auto; try (intros n c [H|[]]; discriminate); try discriminate.
  - repeat constructor.
  - intros _ n v [H|[]]. injection H as <- _. key.
Qed.
Example C34_ex : tidy (Some tree1) /\ tidy (Some (leaf 7)) /\ no_conflict (Some tree1) (Some tree1) (Some (leaf 7)) /\
  merged_with (Some tree1) (Some (leaf 7)) PLeft = Ok tree1 /\
  merged_with (Some (leaf 7)) (Some tree1) PLeft = Ok (obj KMap [("a", Some (int 7)); ("b", Some (int 2))]%string).
Proof.
  split; [exact tree1_tidy|]. split; [apply leaf_tidy|]. split; [|split; reflexivity].
  intros p av bv cv Hp Ha Hb Hc Oa Oc. rewrite Ha in Hb. injection Hb as <-. exact Oa.
Qed.
(* C34: without that condition left-priority merging is not associative. *)
Theorem C34_associative_refuted : exists a b c ab bc m1 m2, tidy a /\ tidy b /\ tidy c /\
  merged_with a b PLeft = Ok ab /\ merged_with b c PLeft = Ok bc /\
  merged_with (Some ab) c PLeft = Ok m1 /\ merged_with a (Some bc) PLeft = Ok m2 /\ m1 <> m2.
Proof.
  pose (o := fun n z => obj KMap [("a", sub (obj KMap [(n, Some (int z))]))]%string).
  exists (Some (o "x"%string 1%Z)), (Some (leaf 2)), (Some (o "y"%string 3%Z)). do 4 eexists.
  assert (T : forall n z, plain_key (s_ n) -> tidy (Some (o n z))).
  { intros n z Hn. split; [split; [|split]|split; [|split; [|reflexivity]]]; constructor; auto; try discriminate;
      try (intros k c [H|[]]; injection H as _ <-; constructor; auto; try discriminate; try (intros k' c' [H|[]]; discriminate); try (intros _ k' [H|[]]; discriminate)).
    - repeat constructor.
    - repeat constructor.
    - intros _ k v [H|[]]. injection H as <- _. key.
    - intros _ k' v [H|[]]. injection H as <- _. exact Hn.
    - intros _ k [H|[]]. discriminate. }
  split; [apply T; key|]. split; [apply leaf_tidy|]. split; [apply T; key|].
  split; [vm_compute; reflexivity|]. split; [vm_compute; reflexivity|]. split; [vm_compute; reflexivity|]. split; [vm_compute; reflexivity|]. discriminate.
Qed.
Print Assumptions C34_associative_refuted.
