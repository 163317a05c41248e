From Coq Require Import List Bool Arith Sorted Permutation Lia.
From Verif Require Import ReflModel ReflSpec.
Import ListNotations.

(* ---- overloads ---- *)
Lemma resolve_top : forall A n i (x : A) os, (forall k, In k (map fst os) -> k < i) ->
  resolve n ((i, x) :: os) = if i <=? n then Some (i, x) else resolve n os.
Proof.
  intros A n i x os H. cbn [resolve]. destruct (Nat.leb_spec i n) as [L|L]; cbn [andb].
  - destruct (resolve n os) as [[j y]|] eqn:E; [|reflexivity].
    assert (J : In j (map fst os)).
    { clear -E. revert j y E. induction os as [|[k z] os IH]; intros j y E; [discriminate|]. cbn [resolve] in E. cbn [map fst In]. destruct (resolve n os) as [[j' y']|].
      - destruct ((k <=? n) && (j' <? k)); injection E as <- <-; [left; reflexivity|right; eapply IH; reflexivity].
      - destruct (k <=? n); [injection E as <- <-; left; reflexivity|discriminate]. }
    apply H in J. destruct (Nat.ltb_spec j i); [reflexivity|lia].
  - destruct (resolve n os) as [[j y]|]; reflexivity.
Qed.
Lemma mem_in : forall n l, mem n l = true <-> In n l.
Proof.
  intros n l. unfold mem. rewrite existsb_exists. split.
  - intros [x [I E]]. apply Nat.eqb_eq in E. subst. exact I.
  - intros I. exists n. split; [exact I|apply Nat.eqb_refl].
Qed.

(* ---- the specification, at the end of a list ---- *)
Lemma data_from_snoc : forall ds i d, data_from i (ds ++ [d]) =
  data_from i ds ++ match d with Var n t _ => [DataInfo n t (i + length ds)] | Method _ _ => [] end.
Proof.
  induction ds as [|[n t p|n t] ds IH]; intros i d; cbn [data_from app length].
  - rewrite Nat.add_0_r. destruct d; reflexivity.
  - rewrite IH. replace (S i + length ds) with (i + S (length ds)) by lia. reflexivity.
  - rewrite IH. replace (S i + length ds) with (i + S (length ds)) by lia. reflexivity.
Qed.
Lemma data_snoc : forall ds d, data_of (ds ++ [d]) =
  data_of ds ++ match d with Var n t _ => [DataInfo n t (S (length ds))] | Method _ _ => [] end.
Proof. intros. unfold data_of. rewrite data_from_snoc. reflexivity. Qed.
Lemma vars_app : forall a b, vars (a ++ b) = vars a ++ vars b.
Proof. induction a as [|[] a IH]; intros b; cbn; rewrite ?IH; reflexivity. Qed.
Lemma method_names_app : forall a b, method_names (a ++ b) = method_names a ++ method_names b.
Proof. induction a as [|[] a IH]; intros b; cbn; rewrite ?IH; reflexivity. Qed.
Lemma data_names : forall ds i, map name_of (data_from i ds) = vars ds.
Proof. induction ds as [|[] ds IH]; intros i; cbn; rewrite ?IH; reflexivity. Qed.

(* the list of functions: the data members before the last method, and it *)
Fixpoint funcs_at (ds : list decl) (done : list decl) : list info :=
  match ds with
  | [] => []
  | d :: r =>
      match funcs_at r (done ++ [d]) with
      | [] => match d with Method n t => data_of done ++ [FuncInfo n t (S (length done))] | Var _ _ _ => [] end
      | l => l
      end
  end.
Definition funcs_of (ds : list decl) : list info := funcs_at ds [].
Lemma funcs_at_snoc : forall ds done d, funcs_at (ds ++ [d]) done =
  match d with Method n t => data_of (done ++ ds) ++ [FuncInfo n t (S (length (done ++ ds)))] | Var _ _ _ => funcs_at ds done end.
Proof.
  induction ds as [|e ds IH]; intros done d; cbn [funcs_at app].
  - destruct d; [reflexivity|]. rewrite app_nil_r. reflexivity.
  - rewrite IH. destruct d as [n t p|n t]; [reflexivity|]. rewrite <- app_assoc. cbn [app].
    destruct (data_of (done ++ e :: ds)) as [|]; reflexivity.
Qed.
Lemma funcs_snoc : forall ds d, funcs_of (ds ++ [d]) =
  match d with Method n t => data_of ds ++ [FuncInfo n t (S (length ds))] | Var _ _ _ => funcs_of ds end.
Proof. intros. apply funcs_at_snoc. Qed.

(* ---- what has been declared ---- *)
Definition reg_of (ds : list decl) : option info := last (map Some (data_of ds)) None.
Record cinv (ds : list decl) (c : class) : Prop := {
  c_cnt  : forall n, 1 <= n -> resolve n (counters c) = Some (Nat.min n (S (length ds)), Nat.min n (S (length ds)));
  c_keys : forall k, In k (map fst (counters c)) <-> 1 <= k <= S (length ds);
  c_data : forall n, exists k, resolve n (datas c) = Some (k, data_of (firstn n ds)) /\ k <= n;
  c_dkey : forall k, In k (map fst (datas c)) -> k <= length ds;
  c_fun  : forall n, exists k, resolve n (funcs c) = Some (k, funcs_of (firstn n ds)) /\ k <= n;
  c_fkey : forall k, In k (map fst (funcs c)) -> k <= length ds;
  c_reg  : forall n, exists k, resolve n (registers c) = Some (k, reg_of (firstn n ds)) /\ k <= n /\
             (reg_of (firstn n ds) <> None -> 1 <= k /\ data_of (firstn n ds) = data_of (firstn (k - 1) ds) ++
                match reg_of (firstn n ds) with Some i => [i] | None => [] end);
  c_rkey : forall k, In k (map fst (registers c)) -> k <= length ds;
  c_tags : forall i, is_public c i = match nth_error ds (i - 1) with Some (Var _ _ p) => (1 <=? i) && p | _ => false end;
  c_tkey : forall k, In k (map fst (tags c)) -> k <= length ds;
  c_vars : forall n, In n (var_names c) <-> In n (vars ds);
  c_funs : forall n, In n (fun_names c) <-> In n (method_names ds) }.
Lemma cinv0 : cinv [] class0.
Proof.
  constructor; cbn -[Nat.min]; intros.
  - destruct n; [lia|]. rewrite Nat.min_r by lia. reflexivity.
  - lia.
  - exists 0. rewrite firstn_nil. split; [destruct n; reflexivity|lia].
  - lia.
  - exists 0. rewrite firstn_nil. split; [destruct n; reflexivity|lia].
  - lia.
  - exists 0. rewrite firstn_nil. split; [destruct n; reflexivity|split; [lia|]]. intros N. destruct N. reflexivity.
  - lia.
  - destruct (i - 1); reflexivity.
  - contradiction.
  - reflexivity.
  - reflexivity.
Qed.
Lemma firstn_snoc : forall (ds : list decl) d n, firstn n (ds ++ [d]) = if S (length ds) <=? n then ds ++ [d] else firstn n ds.
Proof.
  intros ds d n. destruct (Nat.leb_spec (S (length ds)) n) as [L|L].
  - apply firstn_all2. rewrite app_length. cbn. lia.
  - rewrite firstn_app. replace (n - length ds) with 0 by lia. apply app_nil_r.
Qed.
Lemma reg_snoc : forall ds d, reg_of (ds ++ [d]) = match d with Var n t _ => Some (DataInfo n t (S (length ds))) | Method _ _ => reg_of ds end.
Proof.
  intros ds d. unfold reg_of. rewrite data_snoc. destruct d; [|rewrite app_nil_r; reflexivity]. rewrite map_app. cbn. apply last_last.
Qed.
Lemma nth_snoc : forall (ds : list decl) d k, nth_error (ds ++ [d]) k = if k =? length ds then Some d else nth_error ds k.
Proof.
  intros ds d k. destruct (Nat.eqb_spec k (length ds)) as [->|N].
  - rewrite nth_error_app2, Nat.sub_diag by lia. reflexivity.
  - destruct (Nat.lt_ge_cases k (length ds)) as [L|L]; [apply nth_error_app1; exact L|].
    rewrite nth_error_app2 by lia. rewrite (proj2 (nth_error_None ds k)) by lia. apply nth_error_None. cbn. lia.
Qed.
Definition admissible (d : decl) (ds : list decl) : Prop :=
  length ds < 255 /\ match d with Var n _ _ => ~ In n (vars ds) | Method n _ => ~ In n (method_names ds) end.
Lemma declare_ok : forall ds c d, cinv ds c -> length ds <= 255 ->
  (admissible d ds -> exists c', declare d c = Some c' /\ cinv (ds ++ [d]) c') /\
  (~ admissible d ds -> declare d c = None).
Proof.
  intros ds c d I LE. unfold declare. rewrite (c_cnt _ _ I) by (unfold MAX_COUNTER_VALUE; lia).
  set (i := Nat.min MAX_COUNTER_VALUE (S (length ds))).
  destruct (Nat.lt_ge_cases (length ds) 255) as [L|L].
  2:{ split; [intros [A _]; lia|]. intros _. assert (E : mem (i + 1) (map fst (counters c)) = true).
      { apply mem_in, (c_keys _ _ I). unfold i, MAX_COUNTER_VALUE. lia. } rewrite E. reflexivity. }
  assert (EI : i = S (length ds)) by (unfold i, MAX_COUNTER_VALUE; lia). rewrite EI. clear i EI.
  destruct (mem (S (length ds) + 1) (map fst (counters c))) eqn:M; [apply mem_in in M; apply (c_keys _ _ I) in M; lia|]. clear M.
  replace (S (length ds) - 1) with (length ds) by lia. replace (S (length ds) + 1) with (S (S (length ds))) by lia.
  destruct (c_data _ _ I (length ds)) as (k0 & R0 & K0). rewrite R0, firstn_all. cbn [snd].
  assert (CNT : forall n, 1 <= n -> resolve n ((S (S (length ds)), S (S (length ds))) :: counters c) =
     Some (Nat.min n (S (length (ds ++ [d]))), Nat.min n (S (length (ds ++ [d]))))).
  { intros n N. rewrite resolve_top; [|intros k K; apply (c_keys _ _ I) in K; lia]. rewrite app_length. cbn [length].
    destruct (Nat.leb_spec (S (S (length ds))) n) as [Q|Q].
    - replace (Nat.min n (S (length ds + 1))) with (S (S (length ds))) by lia. reflexivity.
    - rewrite (c_cnt _ _ I) by exact N. replace (Nat.min n (S (length ds + 1))) with (Nat.min n (S (length ds))) by lia. reflexivity. }
  assert (KEY : forall k, In k (map fst ((S (S (length ds)), S (S (length ds))) :: counters c)) <-> 1 <= k <= S (length (ds ++ [d]))).
  { intros k. cbn [map fst In]. rewrite (c_keys _ _ I), app_length. cbn [length]. lia. }
  assert (TOP : forall k, k <= length ds -> k < S (length ds)) by (intros; lia).
  destruct d as [n t p|n t].
  - destruct (mem n (var_names c)) eqn:M.
    { split; [|reflexivity]. intros [_ A]. apply mem_in in M. apply (c_vars _ _ I) in M. contradiction. }
    assert (NI : ~ In n (vars ds)).
    { intros X. apply (c_vars _ _ I), mem_in in X. congruence. }
    split; [|intros A; destruct A; split; assumption]. intros _. eexists. split; [reflexivity|]. constructor; cbn [counters registers datas funcs tags var_names fun_names].
    + exact CNT.
    + exact KEY.
    + intros m. rewrite resolve_top; [|intros k K; apply TOP, (c_dkey _ _ I); exact K]. rewrite firstn_snoc.
      destruct (Nat.leb_spec (S (length ds)) m) as [Q|Q]; [|apply (c_data _ _ I)]. exists (S (length ds)). rewrite data_snoc. auto.
    + intros k [<-|K]; rewrite app_length; cbn; [lia|]. apply (c_dkey _ _ I) in K. lia.
    + intros m. rewrite firstn_snoc. destruct (Nat.leb_spec (S (length ds)) m) as [Q|Q]; [|apply (c_fun _ _ I)].
      rewrite funcs_snoc. destruct (c_fun _ _ I m) as (k & R & K). exists k. rewrite (firstn_all2 ds) in R by lia. auto.
    + intros k K. rewrite app_length; cbn. apply (c_fkey _ _ I) in K. lia.
    + intros m. rewrite resolve_top; [|intros k K; apply TOP, (c_rkey _ _ I); exact K]. rewrite !firstn_snoc.
      destruct (Nat.leb_spec (S (length ds)) m) as [Q|Q].
      * exists (S (length ds)). rewrite reg_snoc. split; [reflexivity|]. split; [exact Q|]. intros _. split; [lia|].
        replace (S (length ds) - 1) with (length ds) by lia. rewrite firstn_snoc. destruct (Nat.leb_spec (S (length ds)) (length ds)); [lia|].
        rewrite firstn_all, data_snoc. reflexivity.
      * destruct (c_reg _ _ I m) as (k & R & K & G). exists k. split; [exact R|]. split; [exact K|]. intros N. destruct (G N) as [G1 G2].
        split; [exact G1|]. rewrite firstn_snoc. destruct (Nat.leb_spec (S (length ds)) (k - 1)); [lia|]. exact G2.
    + intros k [<-|K]; rewrite app_length; cbn; [lia|]. apply (c_rkey _ _ I) in K. lia.
    + intros j. unfold is_public in *. cbn [tags existsb]. rewrite nth_snoc. pose proof (c_tags _ _ I j) as T. unfold is_public in T. rewrite T.
      destruct (Nat.eqb_spec (S (length ds)) j) as [<-|N].
      * replace (S (length ds) - 1) with (length ds) by lia. rewrite Nat.eqb_refl. cbn [Nat.leb andb].
        rewrite (proj2 (nth_error_None ds (length ds))) by lia. apply orb_false_r.
      * cbn [andb orb]. destruct (Nat.eqb_spec (j - 1) (length ds)) as [E|_]; [|reflexivity]. assert (j = 0) by lia. subst j.
        cbn [Nat.leb andb]. destruct (nth_error ds (0 - 1)) as [[]|]; reflexivity.
    + intros k [<-|K]; rewrite app_length; cbn; [lia|]. apply (c_tkey _ _ I) in K. lia.
    + intros m. rewrite vars_app, in_app_iff. cbn. rewrite (c_vars _ _ I). tauto.
    + intros m. rewrite method_names_app. cbn. rewrite app_nil_r. apply (c_funs _ _ I).
  - destruct (mem n (fun_names c)) eqn:M.
    { split; [|reflexivity]. intros [_ A]. apply mem_in in M. apply (c_funs _ _ I) in M. contradiction. }
    assert (NI : ~ In n (method_names ds)).
    { intros X. apply (c_funs _ _ I), mem_in in X. congruence. }
    split; [|intros A; destruct A; split; assumption]. intros _. eexists. split; [reflexivity|]. constructor; cbn [counters registers datas funcs tags var_names fun_names].
    + exact CNT.
    + exact KEY.
    + intros m. rewrite firstn_snoc. destruct (Nat.leb_spec (S (length ds)) m) as [Q|Q]; [|apply (c_data _ _ I)].
      rewrite data_snoc, app_nil_r. destruct (c_data _ _ I m) as (k & R & K). exists k. rewrite (firstn_all2 ds) in R by lia. auto.
    + intros k K. rewrite app_length; cbn. apply (c_dkey _ _ I) in K. lia.
    + intros m. rewrite resolve_top; [|intros k K; apply TOP, (c_fkey _ _ I); exact K]. rewrite firstn_snoc.
      destruct (Nat.leb_spec (S (length ds)) m) as [Q|Q]; [|apply (c_fun _ _ I)]. exists (S (length ds)). rewrite funcs_snoc. auto.
    + intros k [<-|K]; rewrite app_length; cbn; [lia|]. apply (c_fkey _ _ I) in K. lia.
    + intros m. rewrite !firstn_snoc. destruct (c_reg _ _ I m) as (k & R & K & G).
      assert (F : firstn (k - 1) (ds ++ [Method n t]) = firstn (k - 1) ds \/ length ds <= k - 1) by
        (rewrite firstn_snoc; destruct (Nat.leb_spec (S (length ds)) (k - 1)); [right; lia|left; reflexivity]).
      assert (DF : data_of (firstn (k - 1) (ds ++ [Method n t])) = data_of (firstn (k - 1) ds)).
      { destruct F as [->|F]; [reflexivity|]. rewrite firstn_snoc. destruct (S (length ds) <=? k - 1); [|reflexivity].
        rewrite data_snoc, app_nil_r, firstn_all2 by exact F. reflexivity. }
      exists k. rewrite DF. destruct (Nat.leb_spec (S (length ds)) m) as [Q|Q]; [|auto].
      rewrite reg_snoc, data_snoc, app_nil_r. rewrite (firstn_all2 ds) in R, G by lia. auto.
    + intros k K. rewrite app_length; cbn. apply (c_rkey _ _ I) in K. lia.
    + intros j. unfold is_public in *. cbn [tags]. rewrite nth_snoc. pose proof (c_tags _ _ I j) as T. unfold is_public in T. rewrite T.
      destruct (Nat.eqb_spec (j - 1) (length ds)) as [E|_]; [|reflexivity]. rewrite (proj2 (nth_error_None ds (j - 1))) by lia. reflexivity.
    + intros k K. rewrite app_length; cbn. apply (c_tkey _ _ I) in K. lia.
    + intros m. rewrite vars_app. cbn. rewrite app_nil_r. apply (c_vars _ _ I).
    + intros m. rewrite method_names_app, in_app_iff. cbn. rewrite (c_funs _ _ I). tauto.
Qed.
Lemma compile_snoc : forall ds d c, compile_from (ds ++ [d]) c = match compile_from ds c with Some c' => declare d c' | None => None end.
Proof.
  induction ds as [|e ds IH]; intros d c; cbn [compile_from app].
  - destruct (declare d c); reflexivity.
  - destruct (declare e c) as [c'|]; [apply IH|reflexivity].
Qed.
Definition legal (ds : list decl) : Prop := length ds <= 255 /\ NoDup (vars ds) /\ NoDup (method_names ds).
Lemma nodup_snoc : forall (l : list nat) x, NoDup (l ++ [x]) <-> NoDup l /\ ~ In x l.
Proof.
  intros l x. split.
  - intros H. apply NoDup_remove in H. rewrite app_nil_r in H. exact H.
  - intros [A B]. eapply Permutation_NoDup; [apply Permutation_app_comm|]. cbn. constructor; assumption.
Qed.
Lemma compile_inv : forall ds, (legal ds -> exists c, compile ds = Some c) /\ (forall c, compile ds = Some c -> legal ds /\ cinv ds c).
Proof.
  unfold compile, legal. induction ds as [|d ds [IH1 IH2]] using rev_ind.
  - split; [intros _; eexists; reflexivity|]. intros c [= <-]. split; [repeat split; cbn; [lia|constructor|constructor]|exact cinv0].
  - rewrite compile_snoc, app_length, vars_app, method_names_app. cbn [length].
    assert (EQ : (length ds + 1 <= 255 /\ NoDup (vars ds ++ vars [d]) /\ NoDup (method_names ds ++ method_names [d])) <->
                 ((length ds <= 255 /\ NoDup (vars ds) /\ NoDup (method_names ds)) /\ admissible d ds)).
    { unfold admissible. destruct d as [n t p|n t]; cbn [vars method_names]; rewrite app_nil_r, nodup_snoc; split; intros H; repeat split; try tauto; lia. }
    split.
    + intros X. apply EQ in X as [A B]. destruct (IH1 A) as [c E]. rewrite E. destruct (IH2 _ E) as [_ I]. destruct (declare_ok _ _ d I (proj1 A)) as [D _].
      destruct (D B) as (c' & E' & _). exists c'. exact E'.
    + intros c'. destruct (compile_from ds class0) as [c|] eqn:E; [|discriminate]. intros D. destruct (IH2 _ eq_refl) as [A I].
      destruct (declare_ok _ _ d I (proj1 A)) as [D1 D2].
      assert (AD : admissible d ds \/ ~ admissible d ds).
      { unfold admissible. destruct (Nat.lt_ge_cases (length ds) 255) as [?|?]; [|right; lia].
        destruct d as [n ? ?|n ?]; [destruct (in_dec Nat.eq_dec n (vars ds))|destruct (in_dec Nat.eq_dec n (method_names ds))]; tauto. }
      destruct AD as [AD|AD]; [|rewrite (D2 AD) in D; discriminate].
      destruct (D1 AD) as (c2 & E2 & I2). rewrite E2 in D. injection D as <-. split; [apply EQ; split; assumption|exact I2].
Qed.

(* ---- the manager ---- *)
Definition sorted_of (l : list info) : list info := fold_left (fun acc i => insert i acc) l [].
Lemma insert_perm : forall i l, Permutation (insert i l) (i :: l).
Proof.
  intros i l. induction l as [|j l IH]; cbn [insert]; [reflexivity|]. destruct (info_name i <? info_name j); [reflexivity|].
  rewrite IH. apply perm_swap.
Qed.
Lemma fold_perm : forall l acc, Permutation (fold_left (fun acc i => insert i acc) l acc) (l ++ acc).
Proof.
  induction l as [|i l IH]; intros acc; cbn; [reflexivity|]. rewrite IH, insert_perm. symmetry. apply Permutation_middle.
Qed.
Lemma sorted_perm : forall l, Permutation (sorted_of l) l.
Proof. intros l. unfold sorted_of. rewrite fold_perm, app_nil_r. reflexivity. Qed.
Lemma name_same : forall i, info_name i = name_of i.
Proof. intros []; reflexivity. Qed.
Lemma insert_sorted : forall i l, StronglySorted before l -> ~ In (name_of i) (map name_of l) -> StronglySorted before (insert i l).
Proof.
  intros i l. induction l as [|j l IH]; intros S N; cbn [insert]; [repeat constructor|]. rewrite (name_same i), (name_same j). inversion S as [|? ? S1 F]; subst.
  destruct (Nat.ltb_spec (name_of i) (name_of j)) as [L|L].
  - constructor; [exact S|]. constructor; [exact L|]. eapply Forall_impl; [|exact F]. intros a A. unfold before in *. lia.
  - constructor; [apply IH; [exact S1|intros I; apply N; right; exact I]|].
    rewrite Forall_forall in *. intros a A. apply (Permutation_in _ (insert_perm i l)) in A. destruct A as [<-|A]; [|auto].
    unfold before. assert (name_of i <> name_of j) by (intros E; apply N; left; auto). lia.
Qed.
Lemma sorted_snoc : forall l i, sorted_of (l ++ [i]) = insert i (sorted_of l).
Proof. intros l i. unfold sorted_of. rewrite fold_left_app. reflexivity. Qed.
Lemma sorted_ok : forall l, NoDup (map name_of l) -> StronglySorted before (sorted_of l).
Proof.
  induction l as [|i l IH] using rev_ind; intros N; [constructor|]. rewrite sorted_snoc. rewrite map_app in N. cbn in N. apply nodup_snoc in N as [N1 N2].
  apply insert_sorted; [auto|]. intros I. apply N2. eapply Permutation_in; [apply Permutation_map, sorted_perm|exact I].
Qed.
Lemma find_none : forall n l b, (List.find (fun i => info_name i =? n) l = None) <-> ~ In n (map name_of (members_ (Manager l b))).
Proof.
  intros n l b. cbn [members_]. induction l as [|i l IH]; cbn [List.find map In]; [tauto|]. rewrite name_same. destruct (Nat.eqb_spec (name_of i) n) as [E|E].
  - split; [discriminate|]. intros H. destruct H. auto.
  - rewrite IH. tauto.
Qed.
(* how many of the first members get registered *)
Definition allowed (mem : memory) (v : nat) : nat := match mem with None => v | Some j => Nat.min j v end.
Definition rest (mem : memory) (v : nat) : memory := match mem with None => None | Some j => Some (j - v) end.
Lemma reg_none : forall ds, reg_of ds = None -> data_of ds = [].
Proof.
  intros ds H. unfold reg_of in H. destruct (data_of ds) as [|a l] eqn:E; [reflexivity|].
  destruct (@exists_last _ (a :: l)) as [l' [x X]]; [discriminate|]. rewrite X in H. rewrite map_app in H. cbn in H. rewrite last_last in H. discriminate.
Qed.
Section Manager.
Variables (ds : list decl) (c : class).
Hypothesis (I : cinv ds c) (U : NoDup (vars ds)).
Lemma unique : forall n, NoDup (map name_of (data_of (firstn n ds))).
Proof.
  intros n. unfold data_of. rewrite data_names. rewrite <- (firstn_skipn n ds), vars_app in U. clear -U.
  induction (vars (firstn n ds)) as [|x l IH]; [constructor|]. cbn in U. inversion U as [|? ? A B]; subst. constructor; [|auto].
  intros X. apply A. apply in_or_app. auto.
Qed.
(* a manager without members *)
Lemma register_fresh : forall fuel n mem b, n < fuel ->
  let V := data_of (firstn n ds) in
  runtime_register fuel n c mem (Manager [] b) =
  (Manager (sorted_of (firstn (allowed mem (length V)) V)) b, rest mem (length V),
   if allowed mem (length V) =? length V then Returned tt else Threw).
Proof.
  induction fuel as [|fuel IH]; intros n mem b L; [lia|]. cbn zeta. cbn [runtime_register].
  destruct (c_reg _ _ I n) as (k & R & K & G). rewrite R.
  destruct (reg_of (firstn n ds)) as [i|] eqn:RG.
  - destruct G as [K1 G]; [discriminate|]. rewrite IH by lia. cbn zeta. rewrite G. pose proof (unique n) as UN. rewrite G in UN.
    set (V := data_of (firstn (k - 1) ds)) in *. rewrite app_length. cbn [length]. rewrite map_app in UN. cbn [map] in UN. apply nodup_snoc in UN as [_ UN].
    destruct mem as [j|]; cbn [allowed rest].
    + destruct (Nat.eqb_spec (Nat.min j (length V)) (length V)) as [E|E].
      * rewrite E, firstn_all. destruct (j - length V) as [|q] eqn:Q; cbn [take].
        -- assert (j = length V) by lia. subst j. rewrite Nat.min_l by lia. replace (length V - (length V + 1)) with 0 by lia.
           destruct (Nat.eqb_spec (length V) (length V + 1)); [lia|]. rewrite firstn_app, Nat.sub_diag, firstn_all. cbn. rewrite app_nil_r. reflexivity.
        -- destruct (find (info_name i) (Manager (sorted_of V) b)) eqn:F.
           { exfalso. assert (X : find (info_name i) (Manager (sorted_of V) b) = None); [|congruence].
             apply (find_none _ _ b). cbn. rewrite name_same. intros X. apply UN. eapply Permutation_in; [apply Permutation_map, sorted_perm|exact X]. }
           rewrite Nat.min_r by lia. rewrite Nat.eqb_refl. cbn [members_ inited]. rewrite firstn_all2 by (rewrite app_length; cbn; lia).
           rewrite sorted_snoc. replace (j - (length V + 1)) with q by lia. reflexivity.
      * destruct (Nat.eqb_spec (Nat.min j (length V + 1)) (length V + 1)); [lia|]. rewrite firstn_app. replace (Nat.min j (length V + 1)) with (Nat.min j (length V)) by lia.
        replace (Nat.min j (length V) - length V) with 0 by lia. cbn [firstn]. rewrite app_nil_r. replace (j - (length V + 1)) with (j - length V) by lia. reflexivity.
    + rewrite !Nat.eqb_refl, !firstn_all. cbn [take].
      destruct (find (info_name i) (Manager (sorted_of V) b)) eqn:F.
      { exfalso. assert (X : find (info_name i) (Manager (sorted_of V) b) = None); [|congruence].
        apply (find_none _ _ b). cbn. rewrite name_same. intros X. apply UN. eapply Permutation_in; [apply Permutation_map, sorted_perm|exact X]. }
      cbn [members_ inited]. rewrite firstn_all2 by (rewrite app_length; cbn; lia). rewrite sorted_snoc. reflexivity.
  - rewrite (reg_none _ RG). destruct mem as [j|]; cbn; [rewrite Nat.min_0_r; cbn; rewrite Nat.sub_0_r|]; reflexivity.
Qed.
(* a manager that has the first member *)
Lemma register_again : forall fuel n mem m i l, n < fuel -> data_of (firstn n ds) = i :: l -> In (name_of i) (map name_of (members_ m)) ->
  exists mem', runtime_register fuel n c mem m = (m, mem', Threw).
Proof.
  induction fuel as [|fuel IH]; intros n mem m i l L D P; [lia|]. cbn [runtime_register].
  destruct (c_reg _ _ I n) as (k & R & K & G). rewrite R.
  destruct (reg_of (firstn n ds)) as [x|] eqn:RG; [|rewrite (reg_none _ RG) in D; discriminate].
  destruct G as [K1 G]; [discriminate|]. rewrite D in G. destruct (data_of (firstn (k - 1) ds)) as [|y V] eqn:DV.
  - cbn in G. injection G as -> ->.
    assert (Z : runtime_register fuel (k - 1) c mem m = (m, mem, Returned tt)).
    { destruct fuel as [|fuel']; [lia|]. cbn [runtime_register]. destruct (c_reg _ _ I (k - 1)) as (k' & R' & _ & _). rewrite R'.
      unfold reg_of. rewrite DV. reflexivity. }
    rewrite Z. destruct (take mem) as [mem'|]; [|eexists; reflexivity].
    destruct (find (info_name x) m) eqn:F; [eexists; reflexivity|]. exfalso. destruct m as [ms b]. apply (find_none _ _ b) in F. rewrite name_same in F. contradiction.
  - cbn in G. injection G as -> _. destruct (IH (k - 1) mem m y V) as [mem' E]; [lia|exact DV|exact P|]. rewrite E. eexists. reflexivity.
Qed.
Definition all := data_of ds.
Definition minv (m : manager) : Prop :=
  m = Manager (sorted_of all) true \/ exists j, m = Manager (sorted_of (firstn j all)) false.
Lemma check_ok : length ds <= 255 -> forall mem m, minv m ->
  let '(m', _, o) := check_inited c mem m in minv m' /\ match o with Returned _ => members_ m' = sorted_of all | Threw => True | OutOfFuel => False end.
Proof.
  intros LE mem m M. unfold check_inited.
  assert (D : data_of (firstn MAX_COUNTER_VALUE ds) = all) by (rewrite firstn_all2 by exact LE; reflexivity).
  destruct M as [-> | [j ->]]; cbn [inited]; [split; [left|]; reflexivity|].
  destruct (firstn j all) as [|i l] eqn:J.
  - pose proof (register_fresh (S MAX_COUNTER_VALUE) MAX_COUNTER_VALUE mem false (Nat.lt_succ_diag_r _)) as F. cbn zeta in F. rewrite D in F.
    change (sorted_of []) with (@nil info). rewrite F. destruct (Nat.eqb_spec (allowed mem (length all)) (length all)) as [E|E].
    + rewrite E, firstn_all. split; [left|]; reflexivity.
    + split; [right; eexists; reflexivity|exact Logic.I].
  - destruct all as [|i' l'] eqn:A; [destruct j; discriminate|]. destruct j as [|j]; [discriminate|]. cbn in J. injection J as -> E.
    destruct (register_again (S MAX_COUNTER_VALUE) MAX_COUNTER_VALUE mem (Manager (sorted_of (i :: l)) false) i l' (Nat.lt_succ_diag_r _) D) as [mem' R].
    { eapply Permutation_in; [apply Permutation_map, Permutation_sym, sorted_perm|left; reflexivity]. }
    rewrite R. split; [|exact Logic.I]. right. exists (S j). rewrite A. cbn. rewrite E. reflexivity.
Qed.
(* once it threw half way, it throws for ever *)
Lemma check_stuck : length ds <= 255 -> forall mem m, minv m -> inited m = false -> members_ m <> [] ->
  exists mem', check_inited c mem m = (m, mem', Threw).
Proof.
  intros LE mem m M N E. unfold check_inited. rewrite N.
  assert (D : data_of (firstn MAX_COUNTER_VALUE ds) = all) by (rewrite firstn_all2 by exact LE; reflexivity).
  destruct M as [-> | [j ->]]; [discriminate|]. cbn in E.
  destruct (firstn j all) as [|i l] eqn:J; [contradiction|].
  destruct all as [|i' l'] eqn:A; [destruct j; discriminate|]. destruct j as [|j]; [discriminate|]. cbn in J. injection J as -> E'.
  destruct (register_again (S MAX_COUNTER_VALUE) MAX_COUNTER_VALUE mem (Manager (sorted_of (i :: l)) false) i l' (Nat.lt_succ_diag_r _) D) as [mem' R].
  { eapply Permutation_in; [apply Permutation_map, Permutation_sym, sorted_perm|left; reflexivity]. }
  rewrite R. eexists. reflexivity.
Qed.
Lemma check_free : length ds <= 255 -> forall m, m = Manager (sorted_of all) true \/ m = Manager [] false ->
  check_inited c None m = (Manager (sorted_of all) true, None, Returned tt).
Proof.
  intros LE m [-> | ->]; [reflexivity|]. unfold check_inited. cbn [inited].
  assert (D : data_of (firstn MAX_COUNTER_VALUE ds) = all) by (rewrite firstn_all2 by exact LE; reflexivity).
  rewrite (register_fresh (S MAX_COUNTER_VALUE) MAX_COUNTER_VALUE None false (Nat.lt_succ_diag_r _)). cbn zeta. rewrite D. cbn [allowed rest].
  rewrite Nat.eqb_refl, firstn_all. reflexivity.
Qed.
End Manager.
Lemma find_right : forall ds m n, members_ m = sorted_of (data_of ds) ->
  match find n m with Some i => In i (data_of ds) /\ name_of i = n | None => ~ In n (vars ds) end.
Proof.
  intros ds [ms b] n E. cbn in E. subst ms. unfold find. cbn [members_]. destruct (List.find (fun i => info_name i =? n) (sorted_of (data_of ds))) as [i|] eqn:F.
  - apply find_some in F as [I N]. apply Nat.eqb_eq in N. rewrite name_same in N. split; [|exact N].
    eapply Permutation_in; [apply sorted_perm|exact I].
  - apply (find_none _ _ b) in F. cbn in F. intros X. apply F. unfold data_of in *. rewrite <- (data_names ds 1) in X.
    eapply Permutation_in; [apply Permutation_map, Permutation_sym, sorted_perm|exact X].
Qed.
Lemma list_right : forall ds, NoDup (vars ds) -> let l := sorted_of (data_of ds) in
  StronglySorted before l /\ (forall i, In i l <-> In i (data_of ds)) /\ length l = length (data_of ds).
Proof.
  intros ds U l. split; [apply sorted_ok; unfold data_of; rewrite data_names; exact U|]. split.
  - intros i. split; apply Permutation_in; [|symmetry]; apply sorted_perm.
  - apply Permutation_length, sorted_perm.
Qed.
Lemma ask_any : forall ds c qs m, cinv ds c -> legal ds -> minv ds m -> Forall2 (answered true ds) qs (ask_all c qs m).
Proof.
  intros ds c qs m I [LE [U _]]. revert m. induction qs as [|q qs IH]; intros m M; cbn [ask_all]; [constructor|].
  destruct q as [mem|n mem]; cbn [ask]; unfold members, get_by_name.
  - pose proof (check_ok ds c I U LE mem m M) as K. destruct (check_inited c mem m) as [[m' mem'] o]. destruct K as [M' K].
    destruct o as [u| |]; [| |contradiction]; constructor; auto; cbn; [|reflexivity]. rewrite K. apply list_right. exact U.
  - pose proof (check_ok ds c I U LE mem m M) as K. destruct (check_inited c mem m) as [[m' mem'] o]. destruct K as [M' K].
    destruct o as [u| |]; [| |contradiction]; constructor; auto; cbn; [|reflexivity]. pose proof (find_right ds m' n K) as F.
    destruct (find n m'); exact F.
Qed.
Lemma ask_free : forall ds c qs m, cinv ds c -> legal ds -> Forall no_memory_limit qs ->
  m = Manager (sorted_of (data_of ds)) true \/ m = Manager [] false -> Forall2 (answered false ds) qs (ask_all c qs m).
Proof.
  intros ds c qs m I [LE [U _]] N. revert m. induction N as [|q qs Q N IH]; intros m M; cbn [ask_all]; [constructor|].
  destruct q as [mem|n mem]; cbn in Q; subst mem; cbn [ask]; unfold members, get_by_name; rewrite (check_free ds c I U LE m M); constructor; auto; cbn.
  - apply list_right. exact U.
  - exact (find_right ds (Manager (sorted_of (data_of ds)) true) n eq_refl).
Qed.
Lemma lists_of : forall ds c, cinv ds c -> length ds <= 255 ->
  data_members_list c = data_of ds /\ member_functions_list c = funcs_of ds.
Proof.
  intros ds c I L. unfold data_members_list, member_functions_list.
  destruct (c_data _ _ I MAX_COUNTER_VALUE) as (k & -> & _). destruct (c_fun _ _ I MAX_COUNTER_VALUE) as (k' & -> & _).
  rewrite firstn_all2 by exact L. auto.
Qed.
Lemma funcs_none : forall ds, methods_of ds = [] -> funcs_of ds = [].
Proof.
  unfold methods_of. intros ds. generalize 1 as i. induction ds as [|d ds IH] using rev_ind; intros i H; [reflexivity|]. rewrite funcs_snoc.
  assert (S : forall l j, methods_from j (l ++ [d]) = [] -> methods_from j l = [] /\ match d with Method _ _ => False | _ => True end).
  { induction l as [|e l IHl]; intros j X; [destruct d; cbn in *; [auto|discriminate]|]. cbn [app methods_from] in *. destruct e; [|discriminate].
    apply IHl. exact X. }
  destruct (S _ _ H) as [H1 H2]. destruct d; [eapply IH; exact H1|contradiction].
Qed.
Lemma funcs_last : forall a n t b, method_names b = [] -> funcs_of (a ++ Method n t :: b) = data_of a ++ [FuncInfo n t (S (length a))].
Proof.
  intros a n t b. induction b as [|d b IH] using rev_ind; intros H; [apply funcs_snoc|].
  rewrite method_names_app in H. apply app_eq_nil in H as [H1 H2]. change (a ++ Method n t :: b ++ [d]) with (a ++ (Method n t :: b) ++ [d]).
  rewrite app_assoc, funcs_snoc. destruct d; [auto|discriminate].
Qed.
