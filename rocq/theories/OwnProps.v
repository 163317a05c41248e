(* C98: samplers and containers of the user. *)
From Coq Require Import ZArith NArith List Bool Lia Arith.
From Verif Require Import OwnModel OwnSpec OwnProofs.
Import ListNotations.
Local Open Scope N_scope.

Lemma load_compiles {V R St} (p : sampler V R St) c idx s :
  load p c idx s <> NoCompile -> load_ok c (length idx) = true.
Proof. unfold load. destruct (load_ok c (length idx)); [reflexivity | contradiction]. Qed.

Lemma same_category_value {V} (a b : container V) es : honest a -> honest b -> same_elements a b ->
  (if insideb (shape a) es then Some (elems a es) else None) =
  (if insideb (shape b) es then Some (elems b es) else None) /\
  (let k := offset (shape a) es mod size_mod in if k <? cells (shape a) then Some (memory a k) else None) =
  (let k := offset (shape b) es mod size_mod in if k <? cells (shape b) then Some (memory b k) else None).
Proof.
  intros (_ & _ & _ & Ma) (_ & _ & _ & Mb) [E H]. rewrite <- E in *. split.
  - destruct (insideb (shape a) es) eqn:I; [|reflexivity]. f_equal. apply H, insideb_spec, I.
  - cbv zeta. destruct (offset (shape a) es mod size_mod <? cells (shape a)) eqn:K; [|reflexivity].
    apply N.ltb_lt, offset_onto in K as (es' & I & <-). rewrite Ma, Mb by assumption. f_equal. apply H, I.
Qed.

(* every index is checked in its own dimension, in order, then every index is moved,
   in order, and the value is that of the element so reached *)
Theorem C98_element {V R} (p : plan V R) (c : container V) idx log :
  honest c -> lasting c -> length idx = length (shape c) ->
  load (recording p) c idx log <> NoCompile ->
  (forall d, (d < length idx)%nat -> passes p d (arg p idx d) (ext (shape c) d) = true) ->
  inside (shape c) (targets p (shape c) idx) ->
  let v := elems c (targets p (shape c) idx) in
  load (recording p) c idx log =
  match p_value p with
  | Some f => Got (f v) (log ++ check_calls p (shape c) idx (length idx) ++ move_calls p (shape c) idx ++ [Value v])
  | None => Got (p_plain p v) (log ++ check_calls p (shape c) idx (length idx) ++ move_calls p (shape c) idx)
  end.
Proof.
  intros H La L NC P I. cbv zeta. pose proof (proj1 H) as HL.
  rewrite load_spec by (try assumption; unfold dims; try lia; eapply load_compiles; eassumption).
  rewrite (checks_all p idx (shape c) 0) by (assumption || (intros k K; apply P, K)).
  unfold finish. rewrite moves_top by assumption.
  assert ((if generic c then if insideb (shape c) (targets p (shape c) idx) then Some (elems c (targets p (shape c) idx)) else None
          else let k := offset (shape c) (targets p (shape c) idx) mod size_mod in
               if k <? cells (shape c) then Some (memory c k) else None) = Some (elems c (targets p (shape c) idx))) as E.
  { rewrite (value_inside c _ H I). apply insideb_spec in I. rewrite I. destruct (generic c); reflexivity. }
  cbv zeta in E |- *. rewrite E.
  unfold recording at 1. cbn [value]. unfold check_calls, move_calls.
  destruct (p_value p); cbn [option_map]; rewrite <- ?app_assoc; reflexivity.
Qed.
Print Assumptions C98_element.

(* the first index that is not accepted ends the call: nothing behind it is checked,
   nothing is moved or read; the boundary value is asked for once, if there is one *)
Theorem C98_boundary {V R} (p : plan V R) (c : container V) idx log j :
  honest c -> lasting c -> length idx = length (shape c) ->
  load (recording p) c idx log <> NoCompile ->
  (j < length idx)%nat ->
  (forall d, (d < j)%nat -> passes p d (arg p idx d) (ext (shape c) d) = true) ->
  passes p j (arg p idx j) (ext (shape c) j) = false ->
  load (recording p) c idx log =
  match p_bound p with
  | Some r => Got r (log ++ check_calls p (shape c) idx (S j) ++ [Bound])
  | None => Thrown (log ++ check_calls p (shape c) idx (S j))
  end.
Proof.
  intros H La L NC J P F. pose proof (proj1 H) as HL.
  rewrite load_spec by (try assumption; unfold dims; try lia; eapply load_compiles; eassumption).
  rewrite (checks_fail p idx (shape c) 0 _ j) by assumption.
  unfold finish, recording at 1. cbn [bound]. unfold check_calls.
  destruct (p_bound p); cbn [option_map]; rewrite <- ?app_assoc; reflexivity.
Qed.
Print Assumptions C98_boundary.

(* a sampler that accepts an index and then moves it outside: undefined, when the
   elements are reached row by row *)
Theorem C98_moved_outside {V R} (p : plan V R) (c : container V) idx log :
  honest c -> lasting c -> length idx = length (shape c) -> t_category (top c) <> Continuous ->
  load (recording p) c idx log <> NoCompile ->
  (forall d, (d < length idx)%nat -> passes p d (arg p idx d) (ext (shape c) d) = true) ->
  ~ inside (shape c) (targets p (shape c) idx) ->
  load (recording p) c idx log = Bad.
Proof.
  intros H La L G NC P I. pose proof (proj1 H) as HL.
  rewrite load_spec by (try assumption; unfold dims; try lia; eapply load_compiles; eassumption).
  rewrite (checks_all p idx (shape c) 0) by (assumption || (intros k K; apply P, K)).
  unfold finish. rewrite moves_top by assumption.
  unfold generic. destruct (t_category (top c)); [| |contradiction].
  all: destruct (insideb (shape c) (targets p (shape c) idx)) eqn:E; [|reflexivity];
    exfalso; apply I, insideb_spec, E.
Qed.
Print Assumptions C98_moved_outside.

(* the kind of a container does not matter: with the same elements, whatever methods
   each of them has and however its rows are made, any sampler (also one that
   changes as it is used) gives the same result and ends in the same state *)
Theorem C98_every_kind {V R St} (p : sampler V R St) (a b : container V) idx s :
  honest a -> honest b -> lasting a -> lasting b -> same_elements a b -> length idx = length (shape a) ->
  load p a idx s <> NoCompile -> load p b idx s <> NoCompile ->
  (t_category (top a) = Continuous <-> t_category (top b) = Continuous) \/
  (t_category (top a) <> Continuous /\ load p a idx s <> Bad) ->
  load p b idx s = load p a idx s.
Proof.
  intros Ha Hb La Lb SE L Na Nb K. pose proof (proj1 Ha) as LA. pose proof (proj1 Hb) as LB.
  pose proof (proj1 SE) as ES.
  assert (forall P : Prop, P -> P) as Id by auto.
  rewrite (load_spec p b) by (try assumption; unfold dims; try (rewrite <- ES in LB; lia); eapply load_compiles; eassumption).
  assert (load p a idx s = finish p a (checks p (shape a) 0 idx s) idx) as EA.
  { apply load_spec; try assumption; unfold dims; try lia; eapply load_compiles; eassumption. }
  rewrite EA in *. rewrite <- ES. unfold finish in *. rewrite <- ES in *.
  destruct (checks p (shape a) 0 idx s) as [[|] s1]; [|reflexivity].
  destruct (moves p (shape a) 0 idx s1) as [es s2].
  pose proof (same_category_value a b es Ha Hb SE) as [E1 E2]. rewrite <- ES in E1, E2.
  destruct K as [K | [K1 K2]].
  - unfold generic. destruct (t_category (top a)), (t_category (top b));
      try (exfalso; destruct K as [K K']; (specialize (K eq_refl) || specialize (K' eq_refl)); discriminate).
    all: cbv zeta in *; rewrite ?E1, ?E2; reflexivity.
  - assert (generic a = true) as Ga.
    { unfold generic. destruct (t_category (top a)); [reflexivity | reflexivity | contradiction]. }
    rewrite Ga in *. destruct (insideb (shape a) es) eqn:I; [|contradiction].
    apply insideb_spec in I. pose proof (proj2 SE es I) as EE.
    destruct (generic b); [rewrite <- EE; reflexivity|].
    rewrite ES in I |- *. pose proof (value_inside b es Hb I) as VI. cbv zeta in VI |- *.
    rewrite VI, <- EE. reflexivity.
Qed.
Print Assumptions C98_every_kind.

(* at() finds the element load() reads, and throws where load() takes the boundary
   value; it uses neither transform_value nor boundary_value *)
Theorem C98_at {V R} (p : plan V R) (c : container V) const idx log :
  honest c -> lasting c -> length idx = length (shape c) ->
  at_ (recording p) c const idx log <> NoCompile ->
  ((forall d, (d < length idx)%nat -> passes p d (arg p idx d) (ext (shape c) d) = true) ->
   inside (shape c) (targets p (shape c) idx) ->
   exists q, at_ (recording p) c const idx log =
             Got q (log ++ check_calls p (shape c) idx (length idx) ++ move_calls p (shape c) idx) /\
             read c q false = Some (elems c (targets p (shape c) idx))) /\
  (forall j, (j < length idx)%nat ->
   (forall d, (d < j)%nat -> passes p d (arg p idx d) (ext (shape c) d) = true) ->
   passes p j (arg p idx j) (ext (shape c) j) = false ->
   at_ (recording p) c const idx log = Thrown (log ++ check_calls p (shape c) idx (S j))).
Proof.
  intros H La L NC. pose proof H as (HL & HF & HE & HM).
  unfold at_ in *. destruct (at_ok c const (length idx)) eqn:OK; [|contradiction].
  unfold at_ok in OK. apply andb_true_iff in OK as [OK1 OK3]. apply andb_true_iff in OK1 as [OK0 OK1].
  assert (idx <> []) as NE. { intros ->. discriminate. }
  rewrite (check_bounds_spec (recording p) (top c) (dims c) (shape c)) in * by (unfold dims in *; try assumption; cbn; lia).
  cbn [skipn] in *. split.
  - intros P I. rewrite (checks_all p idx (shape c) 0) in * by (assumption || (intros k K; apply P, K)).
    unfold fetch. pose proof (moves_length (recording p) (shape c) 0 idx) as ML.
    destruct (t_category (top c)) eqn:E.
    1,2: rewrite (fetch_generic_spec (recording p) (levels c) const (shape c) 0 [] false idx) by (unfold dims in *; assumption || lia);
      rewrite moves_top by assumption;
      apply insideb_spec in I; rewrite I;
      rewrite (lasting_removelast (levels c) La); cbn [orb app];
      exists (Elem (targets p (shape c) idx)); (split; [|reflexivity]);
      unfold check_calls, move_calls; rewrite <- app_assoc; reflexivity.
    rewrite (fetch_continuous_spec (recording p) (top c) (dims c) (shape c)) by (unfold dims in *; try assumption; cbn; lia).
    cbn [skipn]. rewrite moves_top by assumption.
    assert (length (targets p (shape c) idx) = length idx) as LT.
    { unfold targets. rewrite map_length, seq_length. reflexivity. }
    rewrite horner_spec.
    2: lia.
    2: { intros E0. rewrite E0 in L. destruct idx; [contradiction | discriminate]. }
    pose proof (value_inside c _ H I) as VI. cbv zeta in VI. cbn [N.mul N.add].
    destruct (offset (shape c) (targets p (shape c) idx) mod size_mod <? cells (shape c)) eqn:K; [|discriminate].
    eexists. split.
    + unfold check_calls, move_calls. rewrite <- app_assoc. reflexivity.
    + cbn [read]. rewrite K. exact VI.
  - intros j J P F. rewrite (checks_fail p idx (shape c) 0 _ j) by assumption. reflexivity.
Qed.
Print Assumptions C98_at.

(* container_ops tells the truth about an honest container, whichever of the methods
   the answer is put together from *)
Theorem C98_ops {V} (c : container V) :
  honest c -> levels c <> [] ->
  (forall n, ops_size (top c) (shape c) = Some n -> n = nth 0 (shape c) 0) /\
  (forall d n, (d < length (shape c))%nat ->
     ops_size_dim (top c) (dims c) (shape c) d = Some n -> n = Some (nth d (shape c) 0)) /\
  (forall l, ops_dimensions c = Some l -> l = shape c) /\
  (forall l, ops_dimensions_range c = Some l -> l = shape c) /\
  (forall n, ops_total_size c = Some n -> n = fold_right N.mul 1 (shape c)).
Proof.
  intros (L & F & FA & M) NE.
  assert (forall k, length (shape c) = k -> map (fun d => nth d (shape c) 0) (seq 0 k) = shape c) as MS.
  { intros k <-. clear. induction (shape c) as [|n l IH]; [reflexivity|].
    cbn [length seq map nth]. f_equal. rewrite <- seq_shift, map_map. exact IH. }
  assert (hd 0 (shape c) = nth 0 (shape c) 0) as HD by (destruct (shape c); reflexivity).
  assert (forall sh, sh <> [] -> Forall (fun n => n < 2 ^ 64) sh -> wrap_total sh = fold_right N.mul 1 sh mod 2 ^ 64) as WT.
  { clear. induction sh as [|n sh IH]; intros NE FA; [contradiction|]. inversion FA; subst.
    destruct sh as [|m sh].
    - cbn [wrap_total fold_right]. rewrite N.mul_1_r, N.mod_small by assumption. reflexivity.
    - change (wrap_total (n :: m :: sh)) with (wrap_mul n (wrap_total (m :: sh))).
      rewrite IH by (discriminate || assumption). unfold wrap_mul, size_mod.
      rewrite N.mul_mod_idemp_r by discriminate. reflexivity. }
  assert (shape c <> []) as NS. { intros E. rewrite E in L. destruct (levels c); [contradiction | discriminate]. }
  assert (wrap_total (shape c) = fold_right N.mul 1 (shape c)) as WT'.
  { rewrite WT by assumption. apply N.mod_small, F. }
  assert (forall l, dims_from_size (top c) (dims c) (shape c) = Some l -> l = shape c) as DF.
  { intros l. unfold dims_from_size. destruct (Nat.eqb (dims c) 1) eqn:E.
    - apply Nat.eqb_eq in E. unfold dims in E. destruct (t_size0 (top c)); [|discriminate].
      intros [= <-]. destruct (shape c) as [|n [|]]; cbn in *; try lia. reflexivity.
    - destruct (t_size1 (top c)); [|discriminate]. intros [= <-]. apply MS. exact L. }
  assert (forall l, ops_dimensions c = Some l -> l = shape c) as OD.
  { intros l. unfold ops_dimensions. destruct (t_dimensions (top c)); [intros [= <-]; reflexivity | apply DF]. }
  split; [|split; [|split; [|split]]].
  - intros n. unfold ops_size. destruct (t_size0 (top c)), (t_size1 (top c)), (t_array (top c)); intros [= <-]; rewrite ?HD; reflexivity.
  - intros d n D. unfold ops_size_dim. destruct (t_size1 (top c)).
    + intros [= <-]. apply nth_error_nth'. exact D.
    + destruct (Nat.eqb (dims c) 1) eqn:E; [|discriminate]. apply Nat.eqb_eq in E. unfold dims in E.
      assert (d = O) by lia. subst d. unfold ops_size.
      destruct (t_size0 (top c)); [intros [= <-]; rewrite HD; reflexivity|].
      destruct (t_size1 (top c)); [intros [= <-]; reflexivity|].
      destruct (t_array (top c)); [intros [= <-]; rewrite HD; reflexivity | discriminate].
  - exact OD.
  - intros l. unfold ops_dimensions_range. destruct (t_dimensions_range (top c)); [intros [= <-]; reflexivity|].
    destruct (ops_has_size1 c); [|discriminate]. intros [= <-]. apply MS. exact L.
  - intros n. unfold ops_total_size. destruct (t_total (top c)); [intros [= <-]; exact WT'|].
    destruct (ops_dimensions c) as [l|]; [|discriminate]. rewrite (OD l eq_refl). intros [= <-]. exact WT'.
Qed.
Print Assumptions C98_ops.

(* which calls compile: at() with k > 0 indices when the extents can be found out and
   either the elements lie behind data() or k rows can be opened one after another;
   load() moreover needs all the indices, except of a dense container *)
Lemma size_dim_ok_iff t n : size_dim_ok t n = true <-> sized t n.
Proof.
  unfold size_dim_ok, sized. rewrite orb_true_iff, andb_true_iff, orb_true_iff, Nat.eqb_eq. reflexivity.
Qed.
Lemma subscript_ok_iff t const : ops_subscript_ok t const = true <-> open_to t (const = true).
Proof.
  unfold ops_subscript_ok, open_to. destruct (t_subscript t), const, (t_const_subscript t);
    split; intros; try reflexivity; try assumption; try discriminate; auto.
Qed.
Lemma generic_ok_iff ls : forall const k,
  generic_ok ls const k = true <->
  (k <= length ls)%nat /\ forall d t, (d < k)%nat -> nth_error ls d = Some t ->
    sized t (length ls - d) /\
    open_to t (const = true /\ forall j u, (j < d)%nat -> nth_error ls j = Some u -> t_rows u = Ref).
Proof.
  induction ls as [|t ls IH]; intros const [|k]; cbn [generic_ok].
  - split; [|reflexivity]. intros _. split; [lia|]. intros d u D. lia.
  - split; [discriminate|]. intros [H _]. cbn in H. lia.
  - split; [|reflexivity]. intros _. split; [lia|]. intros d u D. lia.
  - rewrite !andb_true_iff, size_dim_ok_iff, subscript_ok_iff, IH. split.
    + intros [[Sz Op] [Le Re]]. split; [cbn; lia|]. intros [|d] u D E.
      * injection E as <-. split; [rewrite Nat.sub_0_r; exact Sz|]. intros Su [C _]. now apply Op.
      * cbn in E. destruct (Re d u ltac:(lia) E) as [S1 O1]. split; [exact S1|].
        intros Su [C R]. apply O1; [exact Su|]. split.
        -- rewrite (R O t ltac:(lia) eq_refl). exact C.
        -- intros j w J W. apply (R (Datatypes.S j) w ltac:(lia) W).
    + intros [Le Re]. destruct (Re O t ltac:(lia) eq_refl) as [S1 O1]. rewrite Nat.sub_0_r in S1.
      split; [split; [exact S1|]|split].
      * intros Su C. apply O1; [exact Su|]. split; [exact C|]. intros j w J. lia.
      * cbn in Le. lia.
      * intros d u D E. destruct (Re (Datatypes.S d) u ltac:(lia) E) as [S2 O2]. split; [exact S2|].
        intros Su [C R]. apply O2; [exact Su|]. destruct (t_rows t) eqn:Tr; try discriminate C. split; [exact C|].
        intros [|j] w J W; [injection W as <-; exact Tr|]. apply (R j w ltac:(lia) W).
Qed.
Lemma at_ok_iff {V} (c : container V) const k :
  at_ok c const k = true <-> (0 < k)%nat /\ sized (top c) (length (levels c)) /\ reachable_by c (const = true) k.
Proof.
  unfold at_ok, reachable_by. rewrite !andb_true_iff, negb_true_iff, Nat.eqb_neq, size_dim_ok_iff. unfold dims.
  assert ((k <> 0)%nat <-> (0 < k)%nat) as -> by lia.
  destruct (t_category (top c)).
  1,2: rewrite generic_ok_iff; unfold const_row; tauto.
  unfold ops_data_ok. rewrite orb_true_iff. tauto.
Qed.
Theorem C98_compiles {V R St} (p : sampler V R St) (c : container V) const idx s :
  (at_ p c const idx s <> NoCompile <->
   idx <> [] /\ sized (top c) (length (levels c)) /\ reachable_by c (const = true) (length idx)) /\
  (load p c idx s <> NoCompile <->
   idx <> [] /\ sized (top c) (length (levels c)) /\ reachable_by c True (length idx) /\
   (t_category (top c) = Continuous \/ length idx = length (levels c))).
Proof.
  assert (idx <> [] <-> (0 < length idx)%nat) as NE by (destruct idx; cbn; split; intros; try lia; congruence).
  split.
  - rewrite NE, <- at_ok_iff. unfold at_. destruct (at_ok c const (length idx)); [|split; [intros X; now contradiction X|discriminate]].
    split; [reflexivity|]. intros _.
    destruct (check_bounds _ _ _ _ _ _ _) as [[[|] s1]|]; try discriminate.
    destruct (fetch _ _ _ _) as [[[q dead] s2]|]; [|discriminate].
    destruct dead; [discriminate|]. destruct q; try discriminate. destruct (_ <? _); discriminate.
  - assert (reachable_by c True (length idx) <-> reachable_by c (true = true) (length idx)) as RB.
    { unfold reachable_by, const_row, open_to. destruct (t_category (top c)); [| |reflexivity].
      all: split; intros [A B]; (split; [exact A|]); intros d t D E; destruct (B d t D E) as [S1 O1];
        (split; [exact S1|]); intros Su [_ C]; apply O1; auto. }
    rewrite NE, RB.
    assert (load_ok c (length idx) = true <->
            (0 < length idx)%nat /\ sized (top c) (length (levels c)) /\ reachable_by c (true = true) (length idx) /\
            (t_category (top c) = Continuous \/ length idx = length (levels c))) as <-.
    { unfold load_ok. rewrite andb_true_iff, at_ok_iff. unfold dims. destruct (t_category (top c)).
      1,2: rewrite Nat.eqb_eq; intuition discriminate. tauto. }
    unfold load. destruct (load_ok c (length idx)); [|split; [intros X; now contradiction X|discriminate]].
    split; [reflexivity|]. intros _.
    destruct (check_bounds _ _ _ _ _ _ _) as [[[|] s1]|]; try discriminate.
    + destruct (fetch _ _ _ _) as [[[q dead] s2]|]; [|discriminate].
      destruct (read _ _ _) as [v|]; [|discriminate]. destruct (value p) as [f|]; [|discriminate]. destruct (f v s2). discriminate.
    + destruct (bound p) as [f|]; [|discriminate]. destruct (f s1). discriminate.
Qed.
Print Assumptions C98_compiles.

(* which questions container_ops answers *)
Theorem C98_ops_answer {V} (c : container V) :
  levels c <> [] -> length (shape c) = length (levels c) ->
  (ops_size (top c) (shape c) <> None <->
     t_size0 (top c) = true \/ t_size1 (top c) = true \/ t_array (top c) = true) /\
  (forall d, ops_size_dim (top c) (dims c) (shape c) d <> None <-> sized (top c) (length (levels c))) /\
  (ops_dimensions c <> None <->
     t_dimensions (top c) = true \/
     (length (levels c) = 1%nat /\ t_size0 (top c) = true) \/ (length (levels c) <> 1%nat /\ t_size1 (top c) = true)) /\
  (ops_dimensions_range c <> None <-> t_dimensions_range (top c) = true \/ t_size1 (top c) = true) /\
  (ops_total_size c <> None <-> t_total (top c) = true \/ ops_dimensions c <> None) /\
  (ops_data_ok (top c) = true <-> t_data (top c) = true \/ t_array (top c) = true) /\
  (ops_cdata_ok (top c) = true <-> t_cdata (top c) = true \/ t_data (top c) = true \/ t_array (top c) = true) /\
  (ops_has_strides (top c) = true <-> t_stride (top c) = true \/ t_strides (top c) = true) /\
  (forall dense, ops_continuous c dense = true <->
     (t_continuous (top c) = true /\ dense = true) \/ (t_continuous (top c) = false /\ length (levels c) = 1%nat)).
Proof.
  intros NE L. unfold dims.
  assert (1 <= length (levels c))%nat as L1 by (destruct (levels c); [contradiction|cbn; lia]).
  split; [|split; [|split; [|split; [|split; [|split; [|split; [|split]]]]]]].
  - unfold ops_size. destruct (t_size0 (top c)), (t_size1 (top c)), (t_array (top c)); intuition discriminate.
  - intros d. unfold ops_size_dim, sized, ops_size.
    destruct (t_size1 (top c)); [split; intros; [now left|discriminate]|].
    destruct (Nat.eqb_spec (length (levels c)) 1) as [E|E].
    + destruct (t_size0 (top c)), (t_array (top c)); intuition discriminate.
    + split; [congruence|]. intros [X|[X _]]; [discriminate|contradiction].
  - unfold ops_dimensions, dims_from_size, dims. destruct (t_dimensions (top c)); [split; intros; [now left|discriminate]|].
    destruct (Nat.eqb_spec (length (levels c)) 1) as [E|E]; destruct (t_size0 (top c)), (t_size1 (top c)); intuition discriminate.
  - unfold ops_dimensions_range, ops_has_size1, dims. destruct (t_dimensions_range (top c)); [split; intros; [now left|discriminate]|].
    assert (Nat.ltb (length (levels c)) 1 = false) as -> by (apply Nat.ltb_ge; lia). cbn [andb orb].
    destruct (t_size1 (top c)); intuition discriminate.
  - unfold ops_total_size. destruct (t_total (top c)), (ops_dimensions c); intuition discriminate.
  - unfold ops_data_ok. rewrite orb_true_iff. reflexivity.
  - unfold ops_cdata_ok. destruct (t_cdata (top c)), (t_data (top c)), (t_array (top c)); intuition discriminate.
  - unfold ops_has_strides. rewrite orb_true_iff. reflexivity.
  - intros dense. unfold ops_continuous, dims. destruct (t_continuous (top c)).
    + split; [intros ->; now left|]. intros [[_ E]|[E _]]; [exact E|discriminate].
    + rewrite Nat.eqb_eq. split; [intros; now right|]. intros [[E _]|[_ E]]; [discriminate|exact E].
Qed.
Print Assumptions C98_ops_answer.

(* plain arrays, std::array and std::vector: both have a size and data(), and can be
   loaded from with one index, alone and as the rows of another container; only the
   size of the standard ones gives dimensions and total size; neither gives strides
   or dimensions_range *)
Theorem C98_arrays {V R St} (p : sampler V R St) (c : container V) t i s :
  t = array_traits \/ t = std_traits -> levels c = [t] -> length (shape c) = 1%nat ->
  load p c [i] s <> NoCompile /\ (forall const, at_ p c const [i] s <> NoCompile) /\
  (forall outer const k, (k <= 2)%nat -> reachable_by (Container [outer] [] (elems c) (memory c)) (const = true) (Nat.min k 1) ->
     t_category outer = Generic -> t_size1 outer = true ->
     reachable_by (Container [outer; t] [] (elems c) (memory c)) (const = true) k) /\
  ops_size (top c) (shape c) = Some (hd 0 (shape c)) /\
  ops_dimensions_range c = None /\ ops_has_strides (top c) = false /\
  ops_data_ok (top c) = true /\ ops_cdata_ok (top c) = true /\
  (forall dense, ops_continuous c dense = true) /\
  (t = array_traits -> ops_dimensions c = None /\ ops_total_size c = None) /\
  (t = std_traits -> ops_dimensions c = Some (shape c) /\ ops_total_size c = Some (hd 0 (shape c))).
Proof.
  intros T L S1.
  assert (top c = t) as Tp by (unfold top; rewrite L; reflexivity).
  assert (dims c = 1%nat) as D1 by (unfold dims; rewrite L; reflexivity).
  destruct (shape c) as [|n [|]] eqn:Es; try discriminate S1.
  split; [|split; [|split]].
  - apply (proj2 (proj2 (C98_compiles p c true [i] s))). split; [discriminate|]. unfold reachable_by, sized. rewrite Tp, L.
    destruct T as [-> | ->]; cbn; repeat split; auto.
  - intros const. apply (proj2 (proj1 (C98_compiles p c const [i] s))). split; [discriminate|]. unfold reachable_by, sized. rewrite Tp, L.
    destruct T as [-> | ->]; cbn; repeat split; auto.
  - intros outer const k K Rb Ca Si. unfold reachable_by in *. cbn [top levels hd] in *. rewrite Ca in *.
    destruct Rb as [Le Re]. split; [cbn; lia|]. intros d u D E. destruct d as [|[|d]].
    + injection E as <-. split; [now left|]. destruct (Re O outer ltac:(lia) eq_refl) as [_ O1].
      intros Su [C _]. apply O1; [exact Su|]. split; [exact C|]. intros j w J. lia.
    + injection E as <-. split; [right; split; [reflexivity|]|]; destruct T as [-> | ->]; cbn; auto; intros _ _; reflexivity.
    + destruct d; discriminate E.
  - unfold ops_dimensions_range, ops_has_size1, ops_total_size, ops_dimensions, dims_from_size, ops_continuous.
    rewrite Tp, D1, Es. destruct T as [-> | ->]; cbn; repeat split; try discriminate; intros _; now split.
Qed.
Print Assumptions C98_arrays.

(* ---- examples ---- *)
Definition elem (is : list N) : N := fold_left (fun a i => a * 10 + i) is 0.
(* a table that has only size(dim) and operator[], whose rows are proxies *)
Definition table_traits : traits :=
  Traits Generic false true false false false false true true false false false false false Proxy.
Definition row_traits : traits :=
  Traits Generic true false false false false false false false false false false false false Ref.
Definition table : container N := Container [table_traits; row_traits] [2; 3] elem (fun k => elem [k / 3; k mod 3]).
(* the same elements, dense *)
Definition dense_traits : traits :=
  Traits Continuous true true true true true true true true true true true true false Proxy.
Definition dense : container N := Container [dense_traits; dense_traits] [2; 3] elem (fun k => elem [k / 3; k mod 3]).
Lemma table_inside is : inside [2; 3] is -> exists i j, is = [i; j] /\ (i < 2 /\ j < 3).
Proof.
  unfold inside. intros H. inversion H; subst. inversion H4; subst. inversion H6; subst. eauto.
Qed.
Lemma table_memory is : inside [2; 3] is -> elem [offset [2; 3] is / 3; offset [2; 3] is mod 3] = elem is.
Proof.
  intros H. apply table_inside in H as (i & j & -> & A & B). cbn [offset fold_right].
  assert (i * (3 * 1) + (j * 1 + 0) = j + i * 3) as -> by lia.
  rewrite N.div_add, N.mod_add, N.div_small, N.mod_small by lia. reflexivity.
Qed.
Lemma table_honest : honest table.
Proof. split; [reflexivity|]. split; [reflexivity|]. split; [repeat constructor|]. exact table_memory. Qed.
Lemma dense_honest : honest dense.
Proof. split; [reflexivity|]. split; [reflexivity|]. split; [repeat constructor|]. exact table_memory. Qed.
Lemma table_lasting : lasting table.
Proof. repeat constructor; discriminate. Qed.
Lemma dense_lasting : lasting dense.
Proof. repeat constructor; discriminate. Qed.

(* a mirror: any index in [-n, 2n) is reflected; values are doubled *)
Definition mirror : plan N N :=
  Plan (fun z => z)
    (Some (fun _ i n => (- Z.of_N n <=? i)%Z && (i <? 2 * Z.of_N n)%Z))
    (Some (fun _ i n => if (i <? 0)%Z then Z.to_N (- i - 1) else if (i <? Z.of_N n)%Z then Z.to_N i else 2 * n - 1 - Z.to_N i))
    (Some (fun v => 2 * v)) (Some 99) (fun v => v).
Example C98_element_example :
  load (recording mirror) table [-2; 4]%Z [] =
    Got 22 [Check 0 (-2)%Z 2; Check 1 4%Z 3; Move 0 (-2)%Z 2; Move 1 4%Z 3; Value 11] /\
  load (recording mirror) dense [-2; 4]%Z [] = load (recording mirror) table [-2; 4]%Z [].
Proof. split; reflexivity. Qed.
Example C98_boundary_example :
  load (recording mirror) dense [-3; 4]%Z [] = Got 99 [Check 0 (-3)%Z 2; Bound] /\
  load (recording mirror) dense [1; 6]%Z [] = Got 99 [Check 0 1%Z 2; Check 1 6%Z 3; Bound].
Proof. split; reflexivity. Qed.
Example C98_moved_outside_example :
  load (recording (Plan (fun z => z) (Some (fun _ _ _ => true)) None None (@None N) (fun v : N => v))) table [1; 3]%Z [] = Bad.
Proof. reflexivity. Qed.
(* a sampler that changes: it gives out its own counter as a row *)
Definition turning : sampler N N N :=
  Sampler (fun z => z) None (Some (true, fun d i n s => ((s + Z.to_N i) mod n, s + 1))) None None (fun v => v).
Example C98_every_kind_example :
  honest table /\ honest dense /\ lasting table /\ lasting dense /\ same_elements table dense /\
  load turning table [1; 2]%Z 5 = Got 2 7 /\ load turning dense [1; 2]%Z 5 = Got 2 7.
Proof.
  split; [apply table_honest|]. split; [apply dense_honest|]. split; [apply table_lasting|]. split; [apply dense_lasting|].
  split; [split; reflexivity|]. split; reflexivity.
Qed.
Example C98_at_example :
  at_ (recording mirror) table false [-2; 4]%Z [] = Got (Elem [1; 1]) [Check 0 (-2)%Z 2; Check 1 4%Z 3; Move 0 (-2)%Z 2; Move 1 4%Z 3] /\
  at_ (recording mirror) table false [-3; 4]%Z [] = Thrown [Check 0 (-3)%Z 2].
Proof. split; reflexivity. Qed.
Example C98_ops_example :
  honest table /\ ops_dimensions table = Some [2; 3] /\ ops_dimensions_range table = Some [2; 3] /\ ops_total_size table = Some 6.
Proof. split; [apply table_honest|]. repeat split. Qed.

(* rows by reference whose operator[] is not const: at() of a non-const container
   is all there is *)
Definition shy (r : rows) : container N :=
  Container [Traits Generic false true false false false false true true false false false false false r;
             Traits Generic true false false false false false true false false false false false false Ref]
            [2; 3] elem (fun k => elem [k / 3; k mod 3]).
Example C98_compiles_example :
  load turning (shy Ref) [1; 2]%Z 5 = NoCompile /\ at_ turning (shy Ref) true [1; 2]%Z 5 = NoCompile /\
  at_ turning (shy Ref) false [1; 2]%Z 5 = Got (Elem [0; 2]) 7 /\
  load turning (shy Proxy) [1; 2]%Z 5 = Got 2 7 /\
  at_ turning (shy Ref) false [1]%Z 5 = Got (Row [0]) 6 /\ load turning (shy Proxy) [1]%Z 5 = NoCompile /\
  at_ turning (shy Proxy) false [1; 2; 0]%Z 5 = NoCompile.
Proof. repeat split. Qed.
Example C98_ops_answer_example :
  levels (shy Ref) <> [] /\ length (shape (shy Ref)) = length (levels (shy Ref)) /\
  ops_size (top (shy Ref)) [2; 3] = Some 2 /\ ops_data_ok (top (shy Ref)) = false /\ ops_continuous (shy Ref) true = false.
Proof. split; [discriminate|]. repeat split. Qed.
Example C98_arrays_example :
  let c := Container [array_traits] [3] elem (fun k => elem [k]) in
  load turning c [1%Z] 1 = Got 2 2 /\ at_ turning c true [1%Z] 1 = Got (Mem 2) 2.
Proof. repeat split. Qed.

(* ---- what does not hold ---- *)

(* a check_index (or transform_index) with another result type than bool (size_t)
   is not called; nothing says so *)
Theorem C98_other_result_type_refuted :
  exists (c : container N) (p : sampler N N N), honest c /\ lasting c /\
    (exists f, check p = Some (false, f) /\ (forall d i n s, f d i n s = (true, s + 1))) /\
    load p c [2%Z; 0%Z] 0 = Thrown 0.
Proof.
  exists table, (Sampler (fun z => z) (Some (false, fun _ _ _ s => (true, s + 1))) None None None (fun v => v)).
  split; [apply table_honest|]. split; [apply table_lasting|].
  split; [eexists; split; [reflexivity|]; intros; reflexivity | reflexivity].
Qed.
Print Assumptions C98_other_result_type_refuted.

(* load does not mind the number of indices of a dense container: one index of a
   table gives an element of the first row, not of the row asked for *)
Definition default_sampler : sampler N N unit := Sampler (fun z => z) None None None None (fun v => v).
Theorem C98_few_indices_refuted :
  exists (c : container N) v, honest c /\ lasting c /\ length (shape c) = 2%nat /\
    load default_sampler c [1%Z] tt = Got v tt /\ v = elems c [0; 1].
Proof.
  exists dense, 1. split; [apply dense_honest|]. split; [apply dense_lasting|]. repeat split; reflexivity.
Qed.
Print Assumptions C98_few_indices_refuted.
(* and two indices of a std::vector, both within its size, read behind its end *)
Theorem C98_many_indices_refuted :
  exists (c : container N) i j, honest c /\ lasting c /\ levels c = [std_traits] /\
    (0 <= i < 3)%Z /\ (0 <= j < 3)%Z /\ shape c = [3] /\ load default_sampler c [i; j] tt = Bad.
Proof.
  exists (Container [std_traits] [3] elem (fun k => elem [k])), 2%Z, 1%Z.
  split.
  { split; [reflexivity|]. split; [reflexivity|]. split; [repeat constructor|].
    intros is H. inversion H; subst. inversion H4; subst. cbn. do 2 f_equal. lia. }
  split; [repeat constructor; discriminate|]. repeat split; (lia || reflexivity).
Qed.
Print Assumptions C98_many_indices_refuted.

(* rows handed out by value: every load reads an element of a row that has died *)
Theorem C98_owning_rows_refuted :
  exists (c : container N), honest c /\ ~ lasting c /\
    forall i j, inside (shape c) [i; j] -> load default_sampler c [Z.of_N i; Z.of_N j] tt = Bad.
Proof.
  exists (Container [Traits Generic false true false false false false true true false false false false false Owning; row_traits]
            [2; 3] elem (fun k => elem [k / 3; k mod 3])).
  split; [split; [reflexivity|]; split; [reflexivity|]; split; [repeat constructor|]; exact table_memory|].
  split; [intros H; inversion H; subst; cbn in *; contradiction|].
  intros i j H. apply table_inside in H as (i' & j' & E & A & B). injection E as <- <-.
  assert (i = 0 \/ i = 1) as [-> | ->] by lia; assert (j = 0 \/ j = 1 \/ j = 2) as [-> | [-> | ->]] by lia; reflexivity.
Qed.
Print Assumptions C98_owning_rows_refuted.

(* a list: one dimension, size(), operator[] and iterators, but no data().  Taken to
   be dense because it has one dimension, it cannot be loaded from; with its category
   declared it can.  continuous() of container_ops says yes *)
Definition list_traits (c : category) : traits :=
  Traits c true false false false false false true true false false false false false Ref.
Theorem C98_list_refuted :
  exists (a b : container N), same_elements a b /\
    levels a = [list_traits (deduce_category None 1 NoDescriptor)] /\
    levels b = [list_traits (deduce_category (Some Generic) 1 NoDescriptor)] /\
    load default_sampler a [1%Z] tt = NoCompile /\
    load default_sampler b [1%Z] tt = Got (elems a [1]) tt /\
    ops_continuous b false = true.
Proof.
  exists (Container [list_traits Continuous] [3] elem (fun k => elem [k])),
         (Container [list_traits Generic] [3] elem (fun k => elem [k])).
  repeat split.
Qed.
Print Assumptions C98_list_refuted.

(* a std::vector as a row: it has a size, dimensions and a total size, but no
   dimensions_range, which push_back and insert of a table ask for *)
Theorem C98_row_of_std_vector_refuted :
  exists (c : container N), honest c /\ levels c = [std_traits] /\ shape c = [3] /\
  ops_size_dim (top c) (dims c) (shape c) 0 = Some (Some 3) /\ ops_dimensions c = Some [3] /\
  ops_total_size c = Some 3 /\ ops_dimensions_range c = None.
Proof.
  exists (Container [std_traits] [3] elem (fun k => elem [k])). split.
  { split; [reflexivity|]. split; [reflexivity|]. split; [repeat constructor|].
    intros is H. inversion H; subst. inversion H4; subst. cbn. do 2 f_equal. lia. }
  repeat split.
Qed.
Print Assumptions C98_row_of_std_vector_refuted.
