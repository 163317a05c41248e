(* Proofs about the configuration of actor systems. *)
From Coq Require Import String Ascii List Bool Arith NArith ZArith Lia.
From Verif Require Import ConvertModel ConfigModel CtxModel CtxSpec.
From Verif Require ActorPathModel LogModel.
Import ListNotations.
Open Scope Z_scope.

Lemma seqb_iff : forall a b, seqb a b = true <-> a = b.
Proof. intros a b. unfold seqb. destruct (list_eq_dec ascii_dec a b); split; congruence. Qed.

Lemma find_stored : forall k l i v, snd (find_from i k l) = Some v <->
  exists pre post, l = pre ++ (k, Some v) :: post /\ ~ In k (map fst pre).
Proof.
  induction l as [|[k' s] t IH]; intros i v; cbn [find_from].
  - split; [discriminate|]. intros (pre & post & E & _). destruct pre; discriminate.
  - destruct (seqb k' k) eqn:E.
    + apply seqb_iff in E. subst k'. cbn [snd]. split.
      * intros ->. exists [], t. split; [reflexivity|auto].
      * intros (pre & post & L & N). destruct pre as [|p pre]; cbn in L; inversion L; subst; [reflexivity|]. destruct N. left. reflexivity.
    + rewrite IH. split.
      * intros (pre & post & -> & N). exists ((k', s) :: pre), post. split; [reflexivity|]. intros [A|A]; [cbn in A; subst; rewrite (proj2 (seqb_iff k k) eq_refl) in E; discriminate|contradiction].
      * intros (pre & post & L & N). destruct pre as [|p pre]; cbn in L; inversion L; subst.
        { rewrite (proj2 (seqb_iff k k) eq_refl) in E. discriminate. }
        exists pre, post. split; [reflexivity|]. intros I. apply N. right. exact I.
Qed.

Definition plain (k : str) : Prop := tokenize (Path k default_sep) = [k].
Lemma at_stored : forall b k v, plain k -> (e_val (at_key b k) = Some v <-> stored b k v).
Proof.
  intros b k v P. unfold at_key, at_path. rewrite P. cbn [resolve tok_has_next]. destruct b as [[kd es]|].
  - destruct (find_key (Conf kd es) k) as [i w] eqn:F. cbn [e_val]. unfold find_key in F. cbn [ckind centries] in F.
    destruct kd; cbn [is_assoc] in F.
    4: { injection F as <- <-. split; [discriminate|]. intros (kd & pre & post & E & N & _). congruence. }
    all: replace w with (snd (find_from 0 k es)) by (rewrite F; reflexivity); rewrite find_stored; split;
      [intros (pre & post & -> & N); do 3 eexists; split; [reflexivity|]; split; [discriminate|exact N]
      |intros (kd & pre & post & E & N & M); injection E as _ ->; exists pre, post; auto].
  - split; [discriminate|]. intros (kd & pre & post & E & _). discriminate.
Qed.
Lemma stored_fun : forall b k v w, stored b k v -> stored b k w -> v = w.
Proof.
  intros b k v w (kd & pre & post & -> & N & M) (kd' & pre' & post' & E & N' & M'). injection E as _ E.
  revert pre' E M'. induction pre as [|p pre IH]; intros [|q pre'] E M'; cbn in E; inversion E; subst.
  - reflexivity.
  - destruct M'. left. reflexivity.
  - destruct M. left. reflexivity.
  - apply IH with pre'; auto; intros I; [apply M|apply M']; right; exact I.
Qed.

Section Reals.
Variables (exact : N -> option Z) (to_real : Z -> N) (real_to_string : N -> text) (real_of_string : text -> option N).
Notation read_string := (read_string exact to_real real_to_string real_of_string).
Notation read_bool := (read_bool exact to_real real_to_string real_of_string).
Notation read_uint32 := (read_uint32 exact to_real real_to_string real_of_string).
Notation convert := (convert exact to_real real_to_string real_of_string).
Notation element := (element exact to_real real_to_string real_of_string).
Notation elements := (elements exact to_real real_to_string real_of_string).
Notation init_executors := (init_executors exact to_real real_to_string real_of_string).
Notation read_level := (read_level exact to_real real_to_string real_of_string).
Notation construct := (construct exact to_real real_to_string real_of_string).
Notation text_at := (text_at real_to_string).
Notation count_at := (count_at exact).
Notation describes := (describes exact real_to_string).
Notation entry_describes := (entry_describes exact real_to_string).

Lemma text_iff : forall b k s, plain k -> (read_string b k = Some s <-> text_at b k s).
Proof.
  intros b k s P. unfold CtxModel.read_string, CtxSpec.text_at. split.
  - destruct (e_val (at_key b k)) as [v|] eqn:E; [|discriminate]. apply at_stored in E; [|exact P].
    intros G. exists v. split; [exact E|]. destruct v; cbn in G; try discriminate; injection G as <-; constructor.
  - intros (v & S & W). apply at_stored in S; [|exact P]. rewrite S. destruct W; reflexivity.
Qed.
Lemma text_none : forall b k, plain k -> (read_string b k = None <-> forall s, ~ text_at b k s).
Proof.
  intros b k P. split.
  - intros E s T. apply text_iff in T; [congruence|exact P].
  - intros N. destruct (read_string b k) as [s|] eqn:E; [|reflexivity]. apply text_iff in E; [|exact P]. destruct (N s E).
Qed.
Lemma text_fun : forall b k s t, text_at b k s -> text_at b k t -> s = t.
Proof.
  intros b k s t (v & S & W) (w & S' & W'). rewrite (stored_fun _ _ _ _ S S') in W. destruct W; inversion W'; reflexivity.
Qed.
Lemma number_iff : forall v z, get_integer exact to_real real_to_string real_of_string (to_value v) = Some z <-> number exact v z.
Proof.
  intros v z. unfold get_integer. split.
  - destruct v; cbn [to_value apply]; try discriminate.
    + intros [= <-]. constructor.
    + destruct (exact bits) eqn:E; [|discriminate]. intros [= <-]. constructor. exact E.
    + intros [= <-]. constructor.
    + destruct (int_of_string s) eqn:E; [|discriminate]. intros [= <-]. constructor. exact E.
  - intros []; cbn [to_value apply]; try reflexivity; rewrite H; reflexivity.
Qed.
Lemma count_iff : forall b k d n, plain k -> ((exists o, read_uint32 false b k = inl o /\ get_or o d = n) <-> count_at b k d n).
Proof.
  intros b k d n P. unfold CtxModel.read_uint32, CtxSpec.count_at. split.
  - intros (o & E & G). destruct (e_val (at_key b k)) as [v|] eqn:F.
    + apply at_stored in F; [|exact P]. destruct (get_integer _ _ _ _ (to_value v)) as [z|] eqn:I.
      * left. apply number_iff in I. exists v, z. split; [exact F|]. split; [exact I|]. unfold load_int, narrow_cast, ret, cast in E. cbn [option_map andb] in E. injection E as <-. cbn [get_or] in G. symmetry. exact G.
      * right. unfold load_int, ret in E. injection E as <-. split; [symmetry; exact G|]. intros w z S Nw. rewrite (stored_fun _ _ _ _ S F) in Nw.
        apply number_iff in Nw. congruence.
    + injection E as <-. right. split; [symmetry; exact G|]. intros v z S. apply at_stored in S; [congruence|exact P].
  - intros [(v & z & S & Nz & ->)|(-> & N)].
    + apply at_stored in S; [|exact P]. rewrite S. apply number_iff in Nz. rewrite Nz. exists (Some (z mod 2 ^ 32)). split; reflexivity.
    + destruct (e_val (at_key b k)) as [v|] eqn:F.
      * apply at_stored in F; [|exact P]. destruct (get_integer _ _ _ _ (to_value v)) as [z|] eqn:I.
        { apply number_iff in I. destruct (N _ _ F I). }
        exists None. split; reflexivity.
      * exists None. split; reflexivity.
Qed.
Lemma count_total : forall b k, exists o, read_uint32 false b k = inl o.
Proof.
  intros b k. unfold CtxModel.read_uint32. destruct (e_val (at_key b k)) as [v|]; [|eexists; reflexivity].
  destruct (get_integer _ _ _ _ (to_value v)); eexists; reflexivity.
Qed.
Lemma flag_iff : forall b k f, plain k -> (get_or (read_bool b k) false = f <-> flag_at b k f).
Proof.
  intros b k f P. unfold CtxModel.read_bool, flag_at.
  assert (T : forall v x, get_boolean exact to_real real_to_string real_of_string (to_value v) = Some x <-> truth v x).
  { intros v x. unfold get_boolean. split.
    - destruct v; cbn [to_value apply]; try discriminate.
      + intros [= <-]. constructor.
      + intros [= <-]. constructor.
      + destruct (bool_of_string s) eqn:E; [|discriminate]. intros [= <-]. constructor. exact E.
    - intros []; cbn [to_value apply]; try reflexivity; rewrite H; reflexivity. }
  destruct (e_val (at_key b k)) as [v|] eqn:F.
  - apply at_stored in F; [|exact P]. destruct (get_boolean _ _ _ _ (to_value v)) as [x|] eqn:G; cbn [get_or].
    + apply T in G. split; [intros <-; left; exists v; auto|].
      intros [(w & S & X)|(-> & N)]; [|destruct (N _ _ F G)]. rewrite (stored_fun _ _ _ _ S F) in X. apply T in G, X. congruence.
    + split.
      * intros <-. right. split; [reflexivity|]. intros w x S X. rewrite (stored_fun _ _ _ _ S F) in X. apply T in X. congruence.
      * intros [(w & S & X)|(-> & N)]; [|reflexivity]. rewrite (stored_fun _ _ _ _ S F) in X. apply T in X. congruence.
  - assert (NS : forall v, ~ stored b k v) by (intros v S; apply at_stored in S; [congruence|exact P]). cbn [get_or]. split.
    + intros <-. right. split; [reflexivity|]. intros v x S. destruct (NS _ S).
    + intros [(w & S & X)|(-> & N)]; [destruct (NS _ S)|reflexivity].
Qed.

Lemma convert_iff : forall b c, convert false b = inl c <-> describes b c.
Proof.
  intros b c. unfold CtxModel.convert. split.
  - destruct (read_string b (chars "name")) as [n|] eqn:EN; cbn [get andthen]; [|discriminate].
    destruct (read_string b (chars "type")) as [t|] eqn:ET; cbn [get andthen]; [|discriminate].
    apply text_iff in EN, ET; try reflexivity.
    destruct (seqb t (chars "thread_pool")) eqn:TP.
    + apply seqb_iff in TP. subst t.
      destruct (count_total b (chars "threads_num")) as [o1 E1]. destruct (count_total b (chars "throughput")) as [o2 E2].
      rewrite E1, E2. cbn [andthen ret]. intros [= <-]. apply d_pool; auto; (apply count_iff; [reflexivity|]); eexists; eauto.
    + destruct (seqb t (chars "pinned")) eqn:TQ; [|discriminate]. apply seqb_iff in TQ. subst t.
      destruct (count_total b (chars "threads_limit")) as [o1 E1]. rewrite E1. cbn [andthen ret]. intros [= <-].
      apply d_pinned; auto. apply count_iff; [reflexivity|]. eexists; eauto.
  - intros [n t p TN TT C1 C2|n l TN TT C1].
    + apply text_iff in TN, TT; try reflexivity. apply count_iff in C1, C2; try reflexivity.
      destruct C1 as (o1 & E1 & <-), C2 as (o2 & E2 & <-). rewrite TN, TT. cbn [get andthen].
      rewrite (proj2 (seqb_iff _ _) eq_refl), E1, E2. reflexivity.
    + apply text_iff in TN, TT; try reflexivity. apply count_iff in C1; try reflexivity.
      destruct C1 as (o1 & E1 & <-). rewrite TN, TT. cbn [get andthen].
      assert (D : seqb (chars "pinned") (chars "thread_pool") = false) by reflexivity. rewrite D.
      rewrite (proj2 (seqb_iff _ _) eq_refl), E1. reflexivity.
Qed.
Lemma convert_fails : forall b e, convert false b = inr e -> e = ConfigError.
Proof.
  intros b e. unfold CtxModel.convert.
  destruct (read_string b (chars "name")) as [n|]; cbn [get andthen]; [|congruence].
  destruct (read_string b (chars "type")) as [t|]; cbn [get andthen]; [|congruence].
  destruct (count_total b (chars "threads_num")) as [o1 E1]. destruct (count_total b (chars "throughput")) as [o2 E2].
  destruct (count_total b (chars "threads_limit")) as [o3 E3].
  destruct (seqb t (chars "thread_pool")); [rewrite E1, E2; discriminate|].
  destruct (seqb t (chars "pinned")); [rewrite E3; discriminate|]. cbn. congruence.
Qed.

Lemma element_iff : forall kd es i c, element false (Some (Conf kd es)) i = inl (Some c) <-> exists e, nth_error es i = Some e /\ entry_describes e c.
Proof.
  intros kd es i c. unfold CtxModel.element, entry_at, find_index, ret, slot, ConfigModel.value. cbn [centries].
  destruct (nth_error es i) as [[k s]|] eqn:E; rewrite ?E; cbn [e_val].
  - destruct s as [v|]; [|split; [discriminate|intros (e & [= <-] & b & D & _); discriminate]]. unfold as_conf.
    destruct v; try (split; [discriminate|intros (e & [= <-] & b' & D & _); discriminate]).
    destruct (convert false c0) as [x|f] eqn:C.
    + split; [intros [= <-]; eexists; split; [reflexivity|]; exists c0; split; [reflexivity|apply convert_iff; exact C]|].
      intros (e & [= <-] & b' & [= <-] & D). apply convert_iff in D. congruence.
    + apply convert_fails in C as F. subst f. split; [discriminate|]. intros (e & [= <-] & b' & [= <-] & D). apply convert_iff in D. congruence.
  - split; [discriminate|]. intros (e & X & _). discriminate.
Qed.
Lemma element_total : forall b i, exists o, element false b i = inl o.
Proof.
  intros b i. unfold CtxModel.element. destruct (e_val (entry_at b i)); [|eexists; reflexivity].
  destruct (as_conf v); [|eexists; reflexivity]. destruct (convert false o) as [x|f] eqn:C; [eexists; reflexivity|].
  apply convert_fails in C. subst f. eexists; reflexivity.
Qed.

Lemma elements_from : forall kd es k cs r, elements false (Some (Conf kd es)) (seq k (length es - k)) cs = inl r <->
  exists more, Forall2 entry_describes (skipn k es) more /\ r = cs ++ more.
Proof.
  intros kd es k. remember (length es - k)%nat as m eqn:M. revert k M. induction m as [|m IH]; intros k M cs r; cbn [seq CtxModel.elements].
  - rewrite skipn_all2 by lia. split.
    + intros [= <-]. exists []. split; [constructor|rewrite app_nil_r; reflexivity].
    + intros (more & F & ->). inversion F. rewrite app_nil_r. reflexivity.
  - assert (L : (k < length es)%nat) by lia. destruct (nth_error es k) as [e|] eqn:E; [|apply nth_error_None in E; lia].
    assert (SK : skipn k es = e :: skipn (S k) es).
    { clear -E. revert k E. induction es as [|x t IH]; intros [|k] E; cbn in *; try discriminate; [congruence|]. apply IH in E. rewrite E. destruct t; reflexivity. }
    rewrite SK. destruct (element_total (Some (Conf kd es)) k) as [o O]. rewrite O. cbn [andthen]. destruct o as [c|]; cbn [get andthen].
    + apply element_iff in O as D. destruct D as (e' & E' & D). assert (e' = e) by congruence. subst e'. clear E'.
      rewrite (IH (S k)) by lia. split.
      * intros (more & F & ->). exists (c :: more). split; [constructor; assumption|rewrite <- app_assoc; reflexivity].
      * intros (more & F & ->). inversion F as [|? c' ? more' D' F']; subst. exists more'. split; [exact F'|].
        assert (element false (Some (Conf kd es)) k = inl (Some c')) by (apply element_iff; eauto). assert (c' = c) by congruence. subst. rewrite <- app_assoc. reflexivity.
    + split; [discriminate|]. intros (more & F & ->). inversion F as [|? c' ? more' D' F']; subst.
      assert (element false (Some (Conf kd es)) k = inl (Some c')) by (apply element_iff; eauto). congruence.
Qed.
Lemma elements_fails : forall b ids cs e, elements false b ids cs = inr e -> e = BadOptional.
Proof.
  intros b ids. induction ids as [|i t IH]; intros cs e; cbn [CtxModel.elements]; [discriminate|].
  destruct (element_total b i) as [o O]. rewrite O. cbn [andthen]. destruct o; cbn [get andthen]; [apply IH|congruence].
Qed.

Lemma contexts_fun : forall b es es', contexts_at b es -> contexts_at b es' -> es = es'.
Proof.
  intros b es es' [(kd & A)|(-> & A)] [(kd' & B)|(-> & B)].
  - pose proof (stored_fun _ _ _ _ A B). congruence.
  - destruct (B _ A).
  - destruct (A _ B).
  - reflexivity.
Qed.
(* the loop over the configured contexts *)
Definition configured (b : option conf) (cs : list context) : outcome (list context) :=
  let arr := object_of (e_val (at_key b (chars "execution_contexts"))) in
  match arr with None => ret cs | Some _ => elements false arr (seq 0 (size arr)) cs end.
Lemma configured_iff : forall b cs, exists es, contexts_at b es /\
  (forall r, configured b cs = inl r <-> exists more, Forall2 entry_describes es more /\ r = cs ++ more) /\
  (forall e, configured b cs = inr e -> e = BadOptional).
Proof.
  intros b cs. unfold configured, ret. cbv zeta.
  destruct (object_of (e_val (at_key b (chars "execution_contexts")))) as [[kd es]|] eqn:O.
  - exists es. assert (ST : stored b (chars "execution_contexts") (VConf (Some (Conf kd es)))).
    { unfold object_of in O. destruct (e_val (at_key b (chars "execution_contexts"))) as [v|] eqn:E; [|discriminate].
      apply at_stored; [reflexivity|]. rewrite E. destruct v; try discriminate. cbn in O. subst. reflexivity. }
    split; [left; eauto|]. split; [|intros e; apply elements_fails]. intros r. cbn [size]. unfold csize. cbn [centries].
    pose proof (elements_from kd es 0 cs r) as F. rewrite Nat.sub_0_r in F. exact F.
  - exists []. split; [|split].
    + right. split; [reflexivity|]. intros c ST. apply at_stored in ST; [|reflexivity]. rewrite ST in O. discriminate.
    + intros r. split; [intros [= <-]; exists []; split; [constructor|rewrite app_nil_r; reflexivity]|].
      intros (more & F & ->). inversion F. rewrite app_nil_r. reflexivity.
    + discriminate.
Qed.

Notation contexts_of := (contexts_of exact real_to_string).
Lemma contexts_of_fun : forall b d cs d' cs', contexts_of b d cs -> contexts_of b d' cs' -> d = d' /\ cs = cs'.
Proof.
  intros b d cs d' cs' (es & own & more & A & F & -> & H) (es' & own' & more' & A' & F' & -> & H').
  assert (es' = es) by (eapply contexts_fun; eauto). subst es'.
  assert (more' = more).
  { clear -to_real real_of_string F F'. revert more' F'. induction F as [|e c es more D F IH]; intros more' F'; inversion F' as [|? c' ? m' D' G]; subst; [reflexivity|].
    f_equal; [|auto]. destruct D as (b & S & D), D' as (b' & S' & D'). assert (b' = b) by congruence. subst b'. apply convert_iff in D, D'. congruence. }
  subst more'. destruct H as [(T & ->)|(-> & -> & N)], H' as [(T' & ->)|(-> & -> & N')]; auto.
  - split; [eapply text_fun; eauto|reflexivity].
  - destruct (N' _ T).
  - destruct (N _ T').
Qed.
Lemma init_iff : forall b d cs, init_executors false b = inl (d, cs) <-> contexts_of b d cs /\ cs <> [].
Proof.
  intros b d cs. unfold CtxModel.init_executors.
  destruct (read_string b (chars "default_executor")) as [n|] eqn:E.
  - apply text_iff in E; [|reflexivity]. fold (configured b []). destruct (configured_iff b []) as (es & A & C & _).
    split.
    + intros I. change (andthen (configured b []) (fun cs => match find_execution cs n with Some _ => ret (n, cs) | None => inr ConfigError end) = inl (d, cs)) in I.
      destruct (configured b []) as [r|] eqn:G; [|discriminate]. cbn [andthen] in I. destruct r as [|c r]; [discriminate|]. cbn in I. injection I as <- <-.
      split; [|discriminate]. destruct (proj1 (C _) eq_refl) as (more & F & R). exists es, [], more. split; [exact A|]. split; [exact F|]. split; [exact R|]. left. auto.
    + intros [(es' & own & more & A' & F & R & H) NE]. rewrite (contexts_fun _ _ _ A' A) in F.
      destruct H as [(T & ->)|(_ & _ & N)]; [|destruct (N _ E)]. rewrite (text_fun _ _ _ _ T E).
      change (andthen (configured b []) (fun cs => match find_execution cs n with Some _ => ret (n, cs) | None => inr ConfigError end) = inl (n, cs)).
      rewrite (proj2 (C cs)) by eauto. cbn [andthen]. destruct cs; [contradiction|reflexivity].
  - pose proof (proj1 (text_none b (chars "default_executor") eq_refl) E) as N.
    set (own := [get_default (chars "default")]). destruct (configured_iff b own) as (es & A & C & _).
    split.
    + intros I. change (andthen (configured b own) (fun cs => match find_execution cs (chars "default") with Some _ => ret (chars "default", cs) | None => inr ConfigError end) = inl (d, cs)) in I.
      destruct (configured b own) as [r|] eqn:G; [|discriminate]. cbn [andthen] in I. destruct r as [|c r]; [discriminate|]. injection I as <- <-.
      split; [|discriminate]. destruct (proj1 (C _) eq_refl) as (more & F & R). exists es, own, more. split; [exact A|]. split; [exact F|]. split; [exact R|].
      right. auto.
    + intros [(es' & own' & more & A' & F & R & H) NE]. rewrite (contexts_fun _ _ _ A' A) in F.
      destruct H as [(T & _)|(-> & -> & _)]; [destruct (N _ T)|].
      change (andthen (configured b own) (fun cs => match find_execution cs (chars "default") with Some _ => ret (chars "default", cs) | None => inr ConfigError end) = inl (chars "default", cs)).
      rewrite (proj2 (C cs)) by (exists more; auto). subst cs. reflexivity.
Qed.
Lemma init_fails : forall b e, init_executors false b = inr e -> (e = BadOptional /\ forall d cs, ~ contexts_of b d cs) \/ (e = ConfigError /\ exists d, contexts_of b d []).
Proof.
  intros b e I. unfold CtxModel.init_executors in I.
  destruct (read_string b (chars "default_executor")) as [n|] eqn:E.
  - apply text_iff in E; [|reflexivity]. destruct (configured_iff b []) as (es & A & C & Z).
    change (andthen (configured b []) (fun cs => match find_execution cs n with Some _ => ret (n, cs) | None => inr ConfigError end) = inr e) in I.
    destruct (configured b []) as [r|f] eqn:G; cbn [andthen] in I.
    + destruct r; [|discriminate]. injection I as <-. right. split; [reflexivity|]. destruct (proj1 (C _) eq_refl) as (more & F & R). exists n, es, [], more. split; [exact A|]. split; [exact F|]. split; [exact R|]. left. auto.
    + rewrite (Z f eq_refl) in I. injection I as <-. left. split; [reflexivity|]. intros d cs (es' & own & more & A' & F & R & H).
      rewrite (contexts_fun _ _ _ A' A) in F. assert (inr f = inl ([] ++ more)) by (apply C; eauto). discriminate.
  - pose proof (proj1 (text_none b (chars "default_executor") eq_refl) E) as N.
    set (own := [get_default (chars "default")]) in I. destruct (configured_iff b own) as (es & A & C & Z).
    change (andthen (configured b own) (fun cs => match find_execution cs (chars "default") with Some _ => ret (chars "default", cs) | None => inr ConfigError end) = inr e) in I.
    destruct (configured b own) as [r|f] eqn:G; cbn [andthen] in I.
    + destruct (proj1 (C _) eq_refl) as (more & F & R). subst r. discriminate.
    + rewrite (Z f eq_refl) in I. injection I as <-. left. split; [reflexivity|]. intros d cs (es' & own' & more & A' & F & R & H).
      rewrite (contexts_fun _ _ _ A' A) in F. assert (inr f = inl (own ++ more)) by (apply C; eauto). discriminate.
Qed.

Lemma to_level_iff : forall s l, to_level s = Some l <-> s = level_name l.
Proof.
  intros s l. unfold to_level, levels. cbn [find fst].
  assert (H : forall k x r, (seqb k s = false -> (option_map snd r = Some l <-> s = level_name l)) -> (k = level_name l <-> x = l) ->
    (option_map snd (if seqb k s then Some (k, x) else r) = Some l <-> s = level_name l)).
  { intros k x r R Q. destruct (seqb k s) eqn:E; [|auto]. apply seqb_iff in E. subst k. cbn [option_map snd]. rewrite Q. split; congruence. }
  do 6 (apply H; [intros ?|destruct l; split; (reflexivity || discriminate)]). cbn [option_map]. split; [discriminate|].
  intros ->. destruct l; discriminate.
Qed.
Lemma level_iff : forall b l, read_level b = l <-> level_at real_to_string b l.
Proof.
  intros b l. unfold CtxModel.read_level, level_at. destruct (read_string b (chars "log_level")) as [s|] eqn:E.
  - apply text_iff in E; [|reflexivity]. destruct (to_level s) as [m|] eqn:T; cbn [get_or].
    + apply to_level_iff in T. subst s. split; [intros <-; left; exact E|]. intros [X|(-> & N)]; [|destruct (N _ E)].
      pose proof (text_fun _ _ _ _ X E) as Q. destruct l, m; (reflexivity || discriminate).
    + assert (NO : forall m, ~ text_at b (chars "log_level") (level_name m)).
      { intros m X. pose proof (text_fun _ _ _ _ X E) as Q. symmetry in Q. apply to_level_iff in Q. congruence. }
      split; [intros <-; right; auto|]. intros [X|(-> & _)]; [destruct (NO _ X)|reflexivity].
  - pose proof (proj1 (text_none b (chars "log_level") eq_refl) E) as N. cbn [get_or].
    split; [intros <-; right; split; [reflexivity|intros m; apply N]|]. intros [X|(-> & _)]; [destruct (N _ X)|reflexivity].
Qed.

(* a debug build either does the same or stops at a number that does not fit *)
Lemma read_debug : forall b k, read_uint32 true b k = read_uint32 false b k \/ read_uint32 true b k = inr Aborted.
Proof.
  intros b k. unfold CtxModel.read_uint32. destruct (e_val (at_key b k)) as [v|]; [|auto].
  destruct (get_integer _ _ _ _ (to_value v)) as [z|]; [|auto]. cbn [load_int]. unfold narrow_cast.
  destruct ((z =? cast int64 (cast (Int false 32) z)) && _); auto.
Qed.
Lemma convert_debug : forall b, convert true b = convert false b \/ convert true b = inr Aborted.
Proof.
  intros b. unfold CtxModel.convert.
  destruct (get (read_string b (chars "name"))); cbn [andthen]; [|auto].
  destruct (get (read_string b (chars "type"))); cbn [andthen]; [|auto].
  destruct (seqb s0 (chars "thread_pool")).
  - destruct (read_debug b (chars "threads_num")) as [-> | ->]; [|auto]. destruct (read_uint32 false b (chars "threads_num")); cbn [andthen]; [|auto].
    destruct (read_debug b (chars "throughput")) as [-> | ->]; auto.
  - destruct (seqb s0 (chars "pinned")); [|auto]. destruct (read_debug b (chars "threads_limit")) as [-> | ->]; auto.
Qed.
Lemma element_debug : forall b i, element true b i = element false b i \/ element true b i = inr Aborted.
Proof.
  intros b i. unfold CtxModel.element. destruct (e_val (entry_at b i)); [|auto]. destruct (as_conf v); [|auto].
  destruct (convert_debug o) as [-> | ->]; auto.
Qed.
Lemma elements_debug : forall b ids cs, elements true b ids cs = elements false b ids cs \/ elements true b ids cs = inr Aborted.
Proof.
  intros b ids. induction ids as [|i t IH]; intros cs; cbn [CtxModel.elements]; [auto|].
  destruct (element_debug b i) as [-> | ->]; [|auto]. destruct (element false b i); cbn [andthen]; [|auto]. destruct (get o); cbn [andthen]; auto.
Qed.
Lemma construct_debug : forall io n b, construct true io n b = construct false io n b \/ construct true io n b = inr Aborted.
Proof.
  intros io n b. unfold CtxModel.construct. destruct (negb (ActorPathModel.is_valid_system_name n)); [auto|]. cbv zeta.
  assert (H : init_executors true b = init_executors false b \/ init_executors true b = inr Aborted).
  { unfold CtxModel.init_executors. destruct (match read_string b (chars "default_executor") with Some _ => _ | None => _ end) as [d cs].
    cbv zeta. destruct (object_of (e_val (at_key b (chars "execution_contexts")))) as [c|]; [|auto].
    destruct (elements_debug (Some c) (seq 0 (size (Some c))) cs) as [-> | ->]; auto. }
  destruct H as [-> | ->]; auto.
Qed.
End Reals.
