(* Proofs about command line configs. *)
From Coq Require Import Ascii List Bool Arith NArith ZArith Sorting.Sorted Lia.
From Verif Require Import ConvertModel ConfigModel ConfigSpec ConfigProofs CmdModel CmdSpec.
Import ListNotations.
Local Open Scope nat_scope.

(* ---- std::map ---- *)
Lemma NoDup_app_snoc {A} (l : list A) x : NoDup l -> ~ In x l -> NoDup (l ++ [x]).
Proof.
  induction 1 as [|y l N D IH]; intros I; cbn [app]; [constructor; auto; constructor|]. constructor.
  - rewrite in_app_iff. cbn in *. intuition.
  - apply IH. cbn in I. tauto.
Qed.
Section Maps.
Context {V : Type}.
Implicit Types (l : list (str * V)).
Lemma lookup_cons k n (v : V) l : lookup n ((k, v) :: l) = if seqb k n then Some v else lookup n l.
Proof. reflexivity. Qed.
Lemma lookup_set k v l n : StronglySorted slt (map fst l) -> lookup n (set_arg k v l) = if seqb k n then Some v else lookup n l.
Proof.
  induction l as [|[k' v'] l IH]; cbn [map fst set_arg]; intros S; [apply lookup_cons|].
  inversion S as [|? ? S' F]; subst. destruct (scmp k k') eqn:C.
  - apply scmp_eq in C. subst. rewrite !lookup_cons. destruct (seqb k' n); auto.
  - rewrite lookup_cons. auto.
  - rewrite !lookup_cons, (IH S'). apply scmp_gt in C. destruct (seqb k' n) eqn:E; auto. destruct (seqb k n) eqn:E'; auto.
    apply seqb_spec in E, E'. subst. destruct (slt_irrefl n C).
Qed.
Lemma set_keys k v l x : In x (map fst (set_arg k v l)) <-> x = k \/ In x (map fst l).
Proof.
  induction l as [|[k' v'] l IH]; cbn [set_arg map fst In]; [intuition|].
  destruct (scmp k k') eqn:C; cbn [map fst In]; [|intuition|rewrite IH; intuition].
  apply scmp_eq in C. subst. intuition.
Qed.
Lemma set_sorted k v l : StronglySorted slt (map fst l) -> StronglySorted slt (map fst (set_arg k v l)).
Proof.
  induction l as [|[k' v'] l IH]; cbn [set_arg map fst]; intros S; [repeat constructor|].
  inversion S as [|? ? S' F]; subst. destruct (scmp k k') eqn:C; cbn [map fst]; auto.
  - apply scmp_lt in C. constructor; auto. constructor; auto. eapply Forall_impl; [|exact F]. intros; eapply slt_trans; eauto.
  - apply scmp_gt in C. constructor; auto. apply Forall_forall. intros x I. apply set_keys in I. destruct I as [->|I]; auto.
    rewrite Forall_forall in F. auto.
Qed.
Lemma lookup_in k v l : lookup k l = Some v -> In (k, v) l.
Proof.
  induction l as [|[k' v'] l IH]; [discriminate|]. rewrite lookup_cons. destruct (seqb k' k) eqn:E.
  - apply seqb_spec in E. intros [= ->]. subst. left; auto.
  - right; auto.
Qed.
Lemma in_lookup k v l : NoDup (map fst l) -> In (k, v) l -> lookup k l = Some v.
Proof.
  induction l as [|[k' v'] l IH]; [intros _ []|]. cbn [map fst]. inversion 1 as [|? ? N D]; subst. rewrite lookup_cons. intros [E|I].
  - injection E as -> ->. rewrite seqb_refl. auto.
  - destruct (seqb k' k) eqn:E; auto. apply seqb_spec in E. subst. destruct N. change k with (fst (k, v)). apply in_map. auto.
Qed.
Lemma lookup_none k l : lookup k l = None <-> ~ In k (map fst l).
Proof.
  induction l as [|[k' v'] l IH]; [cbn; tauto|]. rewrite lookup_cons. cbn [map fst In]. destruct (seqb k' k) eqn:E.
  - apply seqb_spec in E. split; [discriminate|tauto].
  - apply seqb_neq in E. rewrite IH. tauto.
Qed.
Lemma set_length_new k v l : ~ In k (map fst l) -> length (set_arg k v l) = S (length l).
Proof.
  induction l as [|[k' v'] l IH]; cbn [set_arg map fst In length]; auto. intros N. destruct (scmp k k') eqn:C; cbn [length]; auto.
  - apply scmp_eq in C. subst. tauto.
  - rewrite IH; tauto.
Qed.
Lemma set_snoc k v l : Forall (fun y => slt y k) (map fst l) -> set_arg k v l = l ++ [(k, v)].
Proof.
  induction l as [|[k' v'] l IH]; cbn [set_arg map fst app]; auto. inversion 1; subst.
  rewrite (proj2 (scmp_gt k k')) by auto. rewrite IH; auto.
Qed.
End Maps.

Section Cmd.
Context {real : Type}.
Variable real_of_string : text -> option real.
Variable tclap_add : list (@arg real) -> @arg real -> bool.
Variable tclap_parse : list (@arg real) -> list str -> tresult.
Notation decl := (@decl real).
Notation get := (get real_of_string).
Notation expected := (expected real_of_string).
Notation cadd := (cadd tclap_add).
Notation declare := (declare tclap_add).
Notation cparse := (cparse tclap_parse).

Lemma name_arg (d : decl) : a_name (decl_arg d) = decl_name d.
Proof. destruct d as [[]|[]|[]|]; auto. Qed.
(* the value of one argument *)
Lemma value_spec (d : decl) t :
  (if valid (CValue (decl_arg d) t) then Some (get (CValue (decl_arg d) t)) else None) = expected d t.
Proof.
  destruct t as [s|].
  - destruct d as [[]|[]|[]|]; unfold CmdSpec.expected, valid, CmdModel.get, decl_arg, make_arg; cbn [v_text v_arg a_type];
      try reflexivity; destruct d; reflexivity.
  - destruct d as [[] n [z|]|[] n [r|]|[] n [z|]|]; reflexivity.
Qed.

Lemma has_name_iff {V} k (l : list (str * V)) : has_name k l = true <-> In k (map fst l).
Proof.
  unfold has_name. rewrite existsb_exists. split.
  - intros ([k' v] & I & E). apply seqb_spec in E. cbn in E. subst. apply (in_map fst) in I. auto.
  - intros I. apply in_map_iff in I. destruct I as (e & <- & I). exists e. split; auto. apply seqb_refl.
Qed.

(* the state after declarations *)
Definition declared (ds : list decl) (c : cconf) : Prop :=
  c_known c = map decl_arg ds /\ NoDup (map decl_name ds) /\ StronglySorted slt (map fst (c_args c)) /\
  (forall n, lookup n (c_args c) = option_map (fun d => CValue (decl_arg d) None) (find (fun d => seqb (decl_name d) n) ds)).

Lemma find_app {A} (p : A -> bool) a b : find p (a ++ b) = match find p a with Some x => Some x | None => find p b end.
Proof. induction a; cbn; auto. destruct (p a); auto. Qed.
Lemma find_name_none (ds : list decl) n : find (fun d => seqb (decl_name d) n) ds = None <-> ~ In n (map decl_name ds).
Proof.
  induction ds as [|d ds IH]; cbn [find map In]; [tauto|]. destruct (seqb (decl_name d) n) eqn:E.
  - apply seqb_spec in E. split; [discriminate|tauto].
  - apply seqb_neq in E. rewrite IH. tauto.
Qed.
Lemma find_name_in (ds : list decl) n j d : NoDup (map decl_name ds) -> nth_error ds j = Some d -> decl_name d = n ->
  find (fun d => seqb (decl_name d) n) ds = Some d.
Proof.
  revert j. induction ds as [|e ds IH]; intros j; [destruct j; discriminate|]. cbn [map find]. inversion 1 as [|? ? N D]; subst. intros E F.
  destruct j as [|j]; cbn in E.
  - injection E as ->. rewrite F, seqb_refl. auto.
  - destruct (seqb (decl_name e) n) eqn:Q; eauto. apply seqb_spec in Q. destruct N. rewrite Q, <- F.
    apply in_map. eapply nth_error_In; eauto.
Qed.
Lemma declared_cadd ds c d c' : declared ds c -> cadd c d = Ok c' -> declared (ds ++ [d]) c'.
Proof.
  intros (K & N & S & L). unfold CmdModel.cadd. destruct (tclap_add _ _); [|discriminate].
  destruct (has_name _ _) eqn:H; [discriminate|]. intros [= <-]. rewrite name_arg in *.
  assert (F : find (fun d0 => seqb (decl_name d0) (decl_name d)) ds = None).
  { assert (Q : lookup (decl_name d) (c_args c) = None).
    { apply lookup_none. rewrite <- has_name_iff. congruence. }
    rewrite L in Q. destruct (find _ ds); [discriminate|auto]. }
  repeat split; cbn [c_known c_args].
  - rewrite K, map_app. auto.
  - rewrite map_app. cbn [map]. apply NoDup_app_snoc; auto. apply find_name_none. auto.
  - apply set_sorted; auto.
  - intros n. rewrite lookup_set by auto. rewrite find_app. cbn [find]. rewrite L.
    destruct (seqb (decl_name d) n) eqn:E.
    + apply seqb_spec in E. subst. rewrite F. auto.
    + destruct (find (fun d0 => seqb (decl_name d0) n) ds); auto.
Qed.
Lemma declare_declared ds c : declare ds = Ok c -> declared ds c.
Proof.
  unfold CmdModel.declare.
  assert (G : forall ds2 ds1 c1, declared ds1 c1 -> foldM cadd ds2 c1 = Ok c -> declared (ds1 ++ ds2) c).
  { induction ds2 as [|d ds2 IH]; intros ds1 c1 D; cbn [foldM].
    - intros [= ->]. rewrite app_nil_r. auto.
    - destruct (cadd c1 d) as [c2| | |] eqn:E; cbn [bind]; try discriminate. intros H.
      apply (declared_cadd _ _ _ _ D) in E. specialize (IH _ _ E H). rewrite <- app_assoc in IH. auto. }
  intros H. apply (G ds [] (CConf [] [])); auto. repeat split; cbn; auto; constructor.
Qed.

(* the texts set by TCLAP *)
Lemma set_texts_spec given (ds : list decl) : forall l, NoDup (map decl_name ds) -> StronglySorted slt (map fst l) ->
  (forall d, In d ds -> lookup (decl_name d) l = Some (CValue (decl_arg d) None)) -> length given = length ds ->
  let l' := set_texts given (map decl_arg ds) l in
  StronglySorted slt (map fst l') /\
  (forall n, ~ In n (map decl_name ds) -> lookup n l' = lookup n l) /\
  (forall j d, nth_error ds j = Some d -> lookup (decl_name d) l' = Some (CValue (decl_arg d) (nth j given None))).
Proof.
  unfold set_texts. revert given. induction ds as [|d ds IH]; intros [|g given] l N S H L; try discriminate; cbn [map combine fold_left].
  - repeat split; auto. intros [] d; discriminate.
  - cbn [map] in N. inversion N as [|? ? N1 N2]; subst.
    set (l1 := match g with Some s => set_arg (a_name (decl_arg d)) (CValue (decl_arg d) (Some s)) l | None => l end).
    assert (S1 : StronglySorted slt (map fst l1)) by (unfold l1; destruct g; auto; apply set_sorted; auto).
    assert (L1 : forall n, lookup n l1 = if seqb (decl_name d) n then Some (CValue (decl_arg d) g) else lookup n l).
    { intros n. unfold l1. destruct g as [s|].
      - rewrite lookup_set by auto. rewrite name_arg. auto.
      - destruct (seqb (decl_name d) n) eqn:E; auto. apply seqb_spec in E. subst. apply H. left; auto. }
    assert (H1 : forall d0, In d0 ds -> lookup (decl_name d0) l1 = Some (CValue (decl_arg d0) None)).
    { intros d0 I. rewrite L1. destruct (seqb (decl_name d) (decl_name d0)) eqn:E; [|apply H; right; auto].
      apply seqb_spec in E. destruct N1. rewrite E. apply in_map. auto. }
    destruct (IH given l1 N2 S1 H1) as (A & B & C); [cbn in L; lia|]. fold l1. repeat split; auto.
    + intros n NI. cbn [map In] in NI. rewrite B by tauto. rewrite L1. destruct (seqb (decl_name d) n) eqn:E; auto.
      apply seqb_spec in E. tauto.
    + intros [|j] d0 E; cbn [nth_error nth] in *.
      * injection E as <-. rewrite B by auto. rewrite L1, seqb_refl. auto.
      * apply C; auto.
Qed.
(* prune keeps the valid ones in place *)
Lemma prune_filter l : StronglySorted slt (map fst l) -> @prune real l = filter (fun e => valid (snd e)) l.
Proof.
  unfold prune.
  assert (G : forall l r, StronglySorted slt (map fst r ++ map fst l) ->
    fold_left (fun r (e : str * cvalue) => if valid (snd e) then set_arg (fst e) (snd e) r else r) l r = r ++ filter (fun e => @valid real (snd e)) l).
  { clear. induction l as [|[k v] l IH]; intros r S; cbn [fold_left filter fst snd]; [rewrite app_nil_r; auto|]. cbn [map fst] in S.
    destruct (valid v).
    - rewrite set_snoc.
      + rewrite IH; [rewrite <- app_assoc; auto|]. rewrite map_app, <- app_assoc. auto.
      + apply (sorted_app slt). apply (sublist_sorted slt _ (map fst r ++ k :: map fst l)); auto.
        apply sublist_app; [apply sublist_refl|]. apply sub_keep, sublist_nil.
    - apply IH. apply (sublist_sorted slt _ _ (sublist_app _ _ _ _ (sublist_refl _) (sub_skip k _ _ (sublist_refl _))) S). }
  intros S. apply (G l []); auto.
Qed.
Lemma filter_sorted (p : str * @cvalue real -> bool) l : StronglySorted slt (map fst l) -> StronglySorted slt (map fst (filter p l)).
Proof. intros S. eapply sublist_sorted; [|exact S]. apply sublist_map, sublist_filter. Qed.
Lemma lookup_filter (l : list (str * @cvalue real)) n : NoDup (map fst l) ->
  lookup n (filter (fun e => valid (snd e)) l) = match lookup n l with Some v => if valid v then Some v else None | None => None end.
Proof.
  induction l as [|[k v] l IH]; auto. cbn [map fst filter snd]. inversion 1 as [|? ? N D]; subst. rewrite lookup_cons.
  destruct (valid v) eqn:E; [rewrite lookup_cons|]; rewrite (IH D); destruct (seqb k n) eqn:Q; auto; try rewrite E; auto.
  apply seqb_spec in Q. subst. apply lookup_none in N. rewrite N. auto.
Qed.
Lemma cfg_find_lookup (c : list (str * @cvalue real)) n : forall i,
  cfg_find n i c = match lookup n c with Some v => match cfg_find n i c with Some (j, _) => Some (j, v) | None => None end | None => None end.
Proof.
  induction c as [|[k v] c IH]; intros i; cbn [cfg_find lookup]; auto. destruct (seqb k n); auto.
Qed.
Lemma cfg_find_some (c : list (str * @cvalue real)) n v : (exists i, cfg_find n 0 c = Some (i, v)) <-> lookup n c = Some v.
Proof.
  generalize 0. induction c as [|[k w] c IH]; intros i; cbn [cfg_find lookup].
  - split; [intros (? & ?)|]; discriminate.
  - destruct (seqb k n); [|apply IH]. split; [intros (? & [= _ ->]); auto|intros [= ->]; eauto].
Qed.
Lemma cfg_find_at (c : list (str * @cvalue real)) n i v : NoDup (map fst c) -> (cfg_find n 0 c = Some (i, v) <-> nth_error c i = Some (n, v)).
Proof.
  assert (G : forall k, NoDup (map fst c) -> (cfg_find n k c = Some (i + k, v) <-> nth_error c i = Some (n, v))).
  { revert i. induction c as [|[a w] c IH]; intros i k; cbn [cfg_find map fst]; [destruct i; split; discriminate|].
    inversion 1 as [|? ? N D]; subst. destruct (seqb a n) eqn:E.
    - apply seqb_spec in E. subst. destruct i as [|i]; cbn [nth_error].
      + split; [intros [= ->]; auto|intros [= ->]; auto].
      + split; [intros Q; injection Q; lia|]. intros Q. apply nth_error_In in Q. destruct N. apply (in_map fst) in Q. auto.
    - destruct i as [|i]; cbn [nth_error].
      + split; [|intros Q; injection Q as -> ->; rewrite seqb_refl in E; discriminate].
        intros Q. exfalso. clear -Q. revert Q. generalize (le_n (S k)). generalize (S k) at 2 3.
        induction c as [|[b u] c IH]; intros m L; cbn [cfg_find]; [discriminate|]. destruct (seqb b n); [intros Q; injection Q; lia|]. apply IH. lia.
      + rewrite <- (IH i (S k) D). replace (S i + k) with (i + S k) by lia. tauto. }
  intros D. rewrite <- (G 0 D), Nat.add_0_r. tauto.
Qed.

Lemma parse_spec ds c words given cf : declare ds = Ok c -> tclap_parse (c_known c) words = TDone given -> length given = length ds ->
  cparse c words = PDone cf ->
  StronglySorted slt (map fst cf) /\
  (forall n, ~ In n (map decl_name ds) -> lookup n cf = None) /\
  (forall j d, nth_error ds j = Some d -> lookup (decl_name d) cf =
     let v := CValue (decl_arg d) (nth j given None) in if valid v then Some v else None).
Proof.
  intros D T L P. apply declare_declared in D. destruct D as (K & N & S & F).
  unfold CmdModel.cparse in P. rewrite T, K in P. injection P as <-.
  destruct (set_texts_spec given ds (c_args c) N S) as (A & B & C); auto.
  { intros d I. rewrite F. apply In_nth_error in I. destruct I as [j I]. rewrite (find_name_in ds _ j d); auto. }
  rewrite prune_filter by auto. split; [apply filter_sorted; auto|]. split.
  - intros n NI. rewrite lookup_filter by (apply slt_nodup; auto). rewrite B by auto. rewrite F.
    apply find_name_none in NI. rewrite NI. auto.
  - intros j d E. rewrite lookup_filter by (apply slt_nodup; auto). rewrite (C j d E). auto.
Qed.

Lemma find_iff ds c words given cf n x : declare ds = Ok c -> tclap_parse (c_known c) words = TDone given -> length given = length ds ->
  cparse c words = PDone cf ->
  ((exists i v, cfg_find n 0 cf = Some (i, v) /\ get v = x) <-> argument real_of_string ds given n x).
Proof.
  intros D T L P. destruct (parse_spec _ _ _ _ _ D T L P) as (S & N & F).
  assert (ND : NoDup (map decl_name ds)) by (apply declare_declared in D; apply D).
  split.
  - intros (i & v & E & G). assert (E' : exists i, cfg_find n 0 cf = Some (i, v)) by eauto. apply cfg_find_some in E'.
    destruct (in_dec (list_eq_dec ascii_dec) n (map decl_name ds)) as [I|I]; [|rewrite (N n I) in E'; discriminate].
    apply in_map_iff in I. destruct I as (d & Q & I). apply In_nth_error in I. destruct I as [j I].
    exists j, d. split; auto. split; auto. rewrite <- value_spec. rewrite <- Q in E'. rewrite (F j d I) in E'.
    cbn zeta in E'. destruct (valid _); [|discriminate]. injection E' as <-. rewrite G. auto.
  - intros (j & d & I & Q & E). rewrite <- value_spec in E. specialize (F j d I). cbn zeta in F.
    destruct (valid _); [|discriminate]. injection E as <-. apply cfg_find_some in F. destruct F as [i F]. rewrite Q in F.
    eauto.
Qed.
Lemma find_at ds c words given cf n i v : declare ds = Ok c -> tclap_parse (c_known c) words = TDone given -> length given = length ds ->
  cparse c words = PDone cf -> (cfg_find n 0 cf = Some (i, v) <-> cfg_at cf i = Some (n, v)).
Proof.
  intros D T L P. destruct (parse_spec _ _ _ _ _ D T L P) as (S & N & F). apply cfg_find_at. apply slt_nodup. auto.
Qed.
Lemma sorted_keys ds c words given cf : declare ds = Ok c -> tclap_parse (c_known c) words = TDone given -> length given = length ds ->
  cparse c words = PDone cf -> StronglySorted slt (map fst cf).
Proof. intros D T L P. apply (parse_spec _ _ _ _ _ D T L P). Qed.
(* the number of entries *)
Definition present (given : list (option str)) (ds : list decl) : list str :=
  map (fun e => decl_name (snd e)) (filter (fun e => match expected (snd e) (fst e) with Some _ => true | None => false end) (combine given ds)).
Lemma combine_nth {A B} (l : list A) (m : list B) x y : In (x, y) (combine l m) -> exists j, nth_error l j = Some x /\ nth_error m j = Some y.
Proof.
  revert m. induction l as [|a l IH]; intros [|b m] H; try destruct H.
  - injection H as -> ->. exists 0; auto.
  - destruct (IH m H) as (j & A1 & A2). exists (S j); auto.
Qed.
Lemma nth_combine {A B} (l : list A) (m : list B) x y j : nth_error l j = Some x -> nth_error m j = Some y -> In (x, y) (combine l m).
Proof.
  revert m j. induction l as [|a l IH]; intros [|b m] [|j]; cbn; try discriminate.
  - intros [= ->] [= ->]; auto.
  - intros A1 A2. right. eauto.
Qed.
Lemma present_nodup given ds : NoDup (map decl_name ds) -> NoDup (present given ds).
Proof.
  intros N. apply (sublist_nodup _ (map decl_name ds)); auto. unfold present. clear N. revert given.
  induction ds as [|d ds IH]; intros [|g given]; cbn [combine filter map]; try apply sublist_nil. cbn [fst snd].
  destruct (expected d g); cbn [map snd]; [apply sub_keep|apply sub_skip]; apply IH.
Qed.
Lemma size_exact ds c words given cf : declare ds = Ok c -> tclap_parse (c_known c) words = TDone given -> length given = length ds ->
  cparse c words = PDone cf ->
  cfg_size cf = length (filter (fun e => match expected (snd e) (fst e) with Some _ => true | None => false end) (combine given ds)).
Proof.
  intros D T L P. destruct (parse_spec _ _ _ _ _ D T L P) as (S & N & F).
  assert (ND : NoDup (map decl_name ds)) by (apply declare_declared in D; apply D).
  unfold cfg_size. rewrite <- (map_length fst cf). rewrite <- (map_length (fun e => decl_name (snd e)) (filter _ _)).
  fold (present given ds).
  assert (E : forall n, In n (map fst cf) <-> In n (present given ds)).
  { intros n. unfold present. rewrite (in_map_iff (fun e => decl_name (snd e))). split.
    - intros I. destruct (lookup n cf) as [v|] eqn:Q; [|apply lookup_none in Q; contradiction].
      assert (exists i v, cfg_find n 0 cf = Some (i, v) /\ get v = get v) as A.
      { apply cfg_find_some in Q. destruct Q as [i Q]. eauto. }
      destruct A as (i & w & A & _).
      assert (B : argument real_of_string ds given n (get w)) by (apply (find_iff _ _ _ _ _ _ _ D T L P); eauto).
      destruct B as (j & d & B1 & B2 & B3). exists (nth j given None, d). split; auto. apply filter_In. split.
      + apply (nth_combine _ _ _ _ j); auto. apply nth_error_nth'. rewrite L. apply nth_error_Some. congruence.
      + cbn [fst snd]. rewrite B3. auto.
    - intros ([g d] & Q & I). cbn [snd] in Q. apply filter_In in I. destruct I as [I X]. cbn [fst snd] in X.
      apply combine_nth in I. destruct I as (j & I1 & I2). destruct (expected d g) as [x|] eqn:EX; [|discriminate].
      assert (B : argument real_of_string ds given n x).
      { exists j, d. split; auto. split; auto. rewrite (nth_error_nth _ _ None I1). auto. }
      apply (find_iff _ _ _ _ _ _ _ D T L P) in B. destruct B as (i & v & B & _).
      assert (C : lookup n cf = Some v) by (apply cfg_find_some; eauto). apply lookup_in in C.
      apply (in_map fst) in C. auto. }
  apply Nat.le_antisymm; apply NoDup_incl_length; try apply present_nodup; auto; try apply slt_nodup; auto; intros x; apply E.
Qed.
Lemma mandatory_present (d : decl) g : mandatory d = true -> expected d g = None <-> g = None.
Proof.
  destruct d as [[] n o|[] n o|[] n o|n]; cbn [mandatory]; try discriminate; intros _; destruct g; cbn; split; try discriminate; auto;
    destruct o; discriminate.
Qed.
(* declarations *)
Lemma fold_declare ds c : foldM cadd ds c = Throw \/ foldM cadd ds c = UB \/ exists c', foldM cadd ds c = Ok c'.
Proof.
  revert c. induction ds as [|d ds IH]; intros c; cbn [foldM]; [right; right; eauto|].
  unfold CmdModel.cadd at 1 3 5. destruct (tclap_add _ _); [|left; auto].
  destruct (has_name _ _); cbn [bind]; auto.
Qed.
Lemma declare_safe ds : (forall known a, In (a_name a) (map a_name known) -> tclap_add known a = false) -> declare ds <> UB.
Proof.
  intros H. unfold CmdModel.declare.
  assert (G : forall ds2 ds1 c1, declared ds1 c1 -> foldM cadd ds2 c1 <> UB).
  { induction ds2 as [|d ds2 IH]; intros ds1 c1 D; cbn [foldM]; [discriminate|].
    destruct (cadd c1 d) as [c2| | |] eqn:E; cbn [bind]; try discriminate.
    - apply (IH (ds1 ++ [d])). eapply declared_cadd; eauto.
    - exfalso. unfold CmdModel.cadd in E. destruct (tclap_add _ _) eqn:A; [|discriminate].
      destruct (has_name _ _) eqn:Q; [|discriminate]. apply has_name_iff in Q.
      rewrite H in A; [discriminate|]. destruct D as (K & _ & _ & F).
      rewrite K, map_map. destruct (lookup (a_name (decl_arg d)) (c_args c1)) as [v|] eqn:L; [|apply lookup_none in L; destruct (L ltac:(assumption))].
      rewrite F in L. destruct (find _ ds1) as [e|] eqn:X; [|discriminate]. apply find_some in X. destruct X as [X1 X2].
      apply seqb_spec in X2. rewrite <- X2, <- name_arg. apply (in_map (fun x => a_name (decl_arg x))). auto. }
  apply (G ds [] (CConf [] [])). repeat split; cbn; auto; constructor.
Qed.
(* names repeat iff refused, when TCLAP refuses exactly equal names *)
Lemma declare_ok ds : (forall known a, tclap_add known a = true <-> ~ In (a_name a) (map a_name known)) ->
  ((exists c, declare ds = Ok c) <-> NoDup (map decl_name ds)).
Proof.
  intros H. split; [intros [c D]; apply declare_declared in D; apply D|]. unfold CmdModel.declare.
  assert (G : forall ds2 ds1 c1, declared ds1 c1 -> NoDup (map decl_name (ds1 ++ ds2)) -> exists c, foldM cadd ds2 c1 = Ok c).
  { induction ds2 as [|d ds2 IH]; intros ds1 c1 D N; cbn [foldM]; [eauto|].
    assert (N' : ~ In (decl_name d) (map decl_name ds1)).
    { rewrite map_app in N. cbn [map] in N. apply NoDup_remove_2 in N. rewrite in_app_iff in N. tauto. }
    assert (A : tclap_add (c_known c1) (decl_arg d) = true).
    { apply H. destruct D as (K & _). rewrite K, map_map, name_arg. rewrite (map_ext _ decl_name) by (apply name_arg). auto. }
    assert (B : has_name (a_name (decl_arg d)) (c_args c1) = false).
    { apply not_true_is_false. rewrite has_name_iff, name_arg. intros I. destruct (lookup (decl_name d) (c_args c1)) eqn:L; [|apply lookup_none in L; destruct (L ltac:(assumption))].
      destruct D as (_ & _ & _ & F). rewrite F in L. apply find_name_none in N'. rewrite N' in L. discriminate. }
    assert (E : exists c2, cadd c1 d = Ok c2) by (unfold CmdModel.cadd; rewrite A, B; eauto).
    destruct E as [c2 E]. rewrite E. cbn [bind]. apply (IH (ds1 ++ [d])); [eapply declared_cadd; eauto|]. rewrite <- app_assoc. auto. }
  intros N. apply (G ds [] (CConf [] [])); auto. repeat split; cbn; auto; constructor.
Qed.

(* ---- the dispatcher ---- *)
Notation dparse := (dparse tclap_parse).
Lemma dispatch_call d exe k rest h c cf : lookup k (d_alternatives d) = Some (h, Some c) -> cparse c (exe :: rest) = PDone cf ->
  exists d', dparse d (exe :: k :: rest) = (d', Returned (h cf)) /\ d_calls d' = d_calls d ++ [(k, cf)] /\ d_log d' = d_log d.
Proof. intros L P. unfold CmdModel.dparse. cbn [first_positional nth_error the_rest tl]. rewrite L, P. eexists. split; [reflexivity|]. auto. Qed.
Lemma dispatch_only d words d' r : dparse d words = (d', r) ->
  d_calls d' = d_calls d \/
  exists exe k rest h c cf, words = exe :: k :: rest /\ lookup k (d_alternatives d) = Some (h, Some c) /\ cparse c (exe :: rest) = PDone cf /\
    d_calls d' = d_calls d ++ [(k, cf)] /\ r = Returned (h cf).
Proof.
  unfold CmdModel.dparse, first_positional. destruct words as [|exe [|k rest]]; cbn [nth_error the_rest tl]; unfold handle_error.
  - destruct (d_stream d); intros [= <- <-]; auto.
  - destruct (d_stream d); intros [= <- <-]; auto.
  - destruct (lookup k (d_alternatives d)) as [[h [c|]]|] eqn:L.
    + destruct (cparse c (exe :: rest)) as [cf| |] eqn:P; intros [= <- <-]; auto. right. exists exe, k, rest, h, c, cf. repeat split; auto.
    + intros [= <- <-]; auto.
    + destruct (d_stream d); intros [= <- <-]; auto.
Qed.
Lemma dispatch_error d words m : (match first_positional words with None => m = EmptyLine | Some k => lookup k (d_alternatives d) = None /\ m = Unknown k end) ->
  let (d', r) := dparse d words in
  d_calls d' = d_calls d /\ d_alternatives d' = d_alternatives d /\
  (if d_stream d then d_log d' = d_log d ++ [m] /\ r = Returned (d_error d) else d_log d' = d_log d /\ r = Threw).
Proof.
  unfold CmdModel.dparse. destruct (first_positional words) as [k|].
  - intros [-> ->]. unfold handle_error. destruct (d_stream d) eqn:E; cbn; auto.
  - intros ->. unfold handle_error. destruct (d_stream d) eqn:E; cbn; auto.
Qed.
Lemma dispatch_exit d exe k rest h c n : lookup k (d_alternatives d) = Some (h, Some c) -> cparse c (exe :: rest) = PExit n ->
  dparse d (exe :: k :: rest) = (d, Returned n).
Proof. intros L P. unfold CmdModel.dparse. cbn [first_positional nth_error the_rest tl]. rewrite L, P. auto. Qed.
Lemma alternatives_sorted (d : dispatcher (real := real)) k h b : StronglySorted slt (map fst (d_alternatives d)) ->
  StronglySorted slt (map fst (d_alternatives (add_alternative d k h b))) /\
  forall n, lookup n (d_alternatives (add_alternative d k h b)) = if seqb k n then Some (h, b) else lookup n (d_alternatives d).
Proof. intros S. split; [apply set_sorted; auto|]. intros n. apply lookup_set; auto. Qed.

(* everything done to a dispatcher *)
Inductive dop := Register (k : str) (h : handler (real := real)) (b : cconf (real := real)) | Dispatch (words : list str).
Definition dstep (d : dispatcher) (o : dop) : dispatcher :=
  match o with
  | Register k h b => add_alternative d k h (Some b)
  | Dispatch words => fst (dparse d words)
  end.
Definition drun (ops : list dop) : dispatcher := fold_left dstep ops new_dispatcher.
(* the last registration of the key, if nothing has been dispatched to it since *)
Definition last_registered (k : str) (ops : list dop) : option (handler * cconf) :=
  fold_left (fun r o => match o with Register k' h b => if seqb k' k then Some (h, b) else r | Dispatch _ => r end) ops None.
Lemma drun_sorted ops : StronglySorted slt (map fst (d_alternatives (drun ops))).
Proof.
  unfold drun. assert (G : forall ops d, StronglySorted slt (map fst (d_alternatives d)) -> StronglySorted slt (map fst (d_alternatives (fold_left dstep ops d)))).
  { induction ops0 as [|o ops0 IH]; intros d S; cbn [fold_left]; auto. apply IH. destruct o; cbn [dstep]; [apply set_sorted; auto|].
    unfold CmdModel.dparse, handle_error. destruct (first_positional words); [|destruct (d_stream d); auto].
    destruct (lookup _ _) as [[h [c|]]|]; auto; [|destruct (d_stream d); auto].
    destruct (cparse c _); cbn; auto. apply set_sorted; auto. }
  apply G. constructor.
Qed.
Lemma drun_lookup ops k : option_map fst (lookup k (d_alternatives (drun ops))) = option_map fst (last_registered k ops).
Proof.
  induction ops as [|o ops IH] using rev_ind; [reflexivity|]. unfold drun, last_registered in *. rewrite !fold_left_app. cbn [fold_left].
  fold (drun ops) in *. destruct o as [k' h b|words]; cbn [dstep].
  - cbn [add_alternative d_alternatives]. rewrite lookup_set by apply drun_sorted. destruct (seqb k' k); auto.
  - rewrite <- IH. unfold CmdModel.dparse, handle_error. destruct (first_positional words) as [q|]; [|destruct (d_stream _); auto].
    destruct (lookup q _) as [[h [c|]]|] eqn:L; auto; [|destruct (d_stream _); auto].
    destruct (cparse c _); cbn [fst d_alternatives]; auto. rewrite lookup_set by apply drun_sorted.
    destruct (seqb q k) eqn:E; auto. apply seqb_spec in E. subst. rewrite L. auto.
Qed.
(* a builder is used up by the first successful dispatch *)
Lemma used_up d exe k rest d' r exe' rest' : StronglySorted slt (map fst (d_alternatives d)) ->
  dparse d (exe :: k :: rest) = (d', r) -> d_calls d' <> d_calls d -> dparse d' (exe' :: k :: rest') = (d', NullDeref).
Proof.
  intros S. unfold CmdModel.dparse, handle_error. cbn [first_positional nth_error the_rest tl].
  destruct (lookup k (d_alternatives d)) as [[h [c|]]|] eqn:L.
  - destruct (cparse c _); intros [= <- <-]; try tauto. intros _. cbn [d_alternatives]. rewrite lookup_set, seqb_refl by auto. auto.
  - intros [= <- <-]; tauto.
  - destruct (d_stream d); intros [= <- <-]; cbn; tauto.
Qed.
(* an operation that does not concern the key *)
Definition other_key (k : str) (o : dop) : bool :=
  match o with
  | Register k' _ _ => negb (seqb k' k)
  | Dispatch words => match words with _ :: k' :: _ => negb (seqb k' k) | _ => true end
  end.
Lemma still_ready ops k h b ops' : forallb (other_key k) ops' = true ->
  lookup k (d_alternatives (drun (ops ++ Register k h b :: ops'))) = Some (h, Some b).
Proof.
  induction ops' as [|o ops' IH] using rev_ind.
  - intros _. unfold drun. rewrite fold_left_app. cbn [fold_left dstep add_alternative d_alternatives].
    rewrite lookup_set, seqb_refl by apply drun_sorted. auto.
  - rewrite forallb_app. cbn [forallb]. rewrite andb_true_r. intros H. apply andb_prop in H. destruct H as [H1 H2]. specialize (IH H1).
    replace (ops ++ Register k h b :: ops' ++ [o]) with ((ops ++ Register k h b :: ops') ++ [o]) by (rewrite <- app_assoc; auto).
    set (before := ops ++ Register k h b :: ops') in *. unfold drun. rewrite fold_left_app. cbn [fold_left]. fold (drun before).
    destruct o as [k' h' b'|words]; cbn [dstep other_key] in *.
    + cbn [add_alternative d_alternatives]. rewrite lookup_set by apply drun_sorted. apply negb_true_iff in H2. rewrite H2. auto.
    + unfold CmdModel.dparse, handle_error. destruct words as [|exe [|q rest]]; cbn [first_positional nth_error the_rest tl].
      * destruct (d_stream _); auto.
      * destruct (d_stream _); auto.
      * destruct (lookup q _) as [[h2 [c|]]|] eqn:L; auto; [|destruct (d_stream _); auto].
        destruct (cparse c _); cbn [fst d_alternatives]; auto. rewrite lookup_set by apply drun_sorted.
        apply negb_true_iff in H2. rewrite H2. auto.
Qed.
End Cmd.
