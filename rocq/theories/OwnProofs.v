From Coq Require Import ZArith NArith List Bool Lia Arith.
From Verif Require Import OwnModel OwnSpec.
Import ListNotations.
Local Open Scope N_scope.

Section Proofs.
Context {V R St : Type}.
Notation smp := (sampler V R St).

(* the check and the moves on the remaining extents *)
Fixpoint checks (p : smp) (sh : list N) (d : nat) (idx : list Z) (s : St) : bool * St :=
  match sh, idx with
  | n :: sh', i :: idx' =>
      let '(b, s1) := do_check p d (conv p i) n s in
      if b then checks p sh' (S d) idx' s1 else (false, s1)
  | _, _ => (true, s)
  end.
Fixpoint moves (p : smp) (sh : list N) (d : nat) (idx : list Z) (s : St) : list N * St :=
  match sh, idx with
  | n :: sh', i :: idx' =>
      let '(e, s1) := do_trans p d (conv p i) n s in
      let '(es, s2) := moves p sh' (S d) idx' s1 in (e :: es, s2)
  | _, _ => ([], s)
  end.
Fixpoint insideb (sh is : list N) : bool :=
  match sh, is with
  | [], [] => true
  | n :: sh', i :: is' => (i <? n) && insideb sh' is'
  | _, _ => false
  end.
Lemma insideb_spec sh : forall is, insideb sh is = true <-> inside sh is.
Proof.
  induction sh as [|n sh IH]; intros [|i is]; cbn; unfold inside.
  - split; constructor.
  - split; [discriminate | intros H; inversion H].
  - split; [discriminate | intros H; inversion H].
  - rewrite andb_true_iff, N.ltb_lt, IH. split.
    + intros [A B]. constructor; assumption.
    + intros H. inversion H; subst. split; assumption.
Qed.

Lemma moves_length p sh : forall d idx s, length idx = length sh -> length (fst (moves p sh d idx s)) = length sh.
Proof.
  induction sh as [|n sh IH]; intros d [|i idx] s L; cbn in *; try lia.
  destruct (do_trans p d (conv p i) n s) as [e s1].
  specialize (IH (S d) idx s1 ltac:(lia)). destruct (moves p sh (S d) idx s1) as [es s2]. cbn in *. lia.
Qed.

Lemma size_dim_spec t n sh d : length sh = n -> size_dim_ok t n = true -> (d < n)%nat ->
  ops_size_dim t n sh d = Some (Some (nth d sh 0)).
Proof.
  intros L H D. unfold ops_size_dim, size_dim_ok in *.
  destruct (t_size1 t) eqn:E1.
  - f_equal. apply nth_error_nth'. lia.
  - cbn in H. apply andb_true_iff in H as [A B]. rewrite A. apply Nat.eqb_eq in A.
    unfold ops_size. rewrite E1. assert (d = O) by lia. subst d.
    assert (hd 0 sh = nth 0 sh 0) as E by (destruct sh; reflexivity).
    destruct (t_size0 t); [rewrite E; reflexivity|]. cbn in B. rewrite B, E. reflexivity.
Qed.

Lemma skipn_nth (sh : list N) d : (d < length sh)%nat -> skipn d sh = nth d sh 0 :: skipn (S d) sh.
Proof.
  revert d. induction sh as [|n sh IH]; intros d L; cbn in L; [lia|].
  destruct d as [|d]; [reflexivity|]. cbn [skipn nth]. apply IH. lia.
Qed.

Lemma check_bounds_spec p t n sh : length sh = n -> size_dim_ok t n = true ->
  forall idx d s, (d + length idx)%nat = n ->
  check_bounds p t n sh d idx s = Some (checks p (skipn d sh) d idx s).
Proof.
  intros L H. induction idx as [|i idx IH]; intros d s D.
  - cbn. destruct (skipn d sh); reflexivity.
  - cbn [length] in D. rewrite (skipn_nth sh d) by lia. cbn [check_bounds checks].
    rewrite (size_dim_spec t n sh d L H) by lia.
    destruct (do_check p d (conv p i) (nth d sh 0) s) as [b s1].
    destruct idx as [|j idx].
    + destruct b; [|reflexivity]. cbn. destruct (match sh with [] => [] | _ :: l => skipn d l end); reflexivity.
    + destruct b; [|reflexivity]. apply IH. cbn [length] in *. lia.
Qed.

Fixpoint horner (off : N) (sh es : list N) : N :=
  match sh, es with
  | _ :: ((n' :: _) as sh'), e :: es' => horner (wrap_mul (off + e) n') sh' es'
  | _, e :: _ => (off + e) mod size_mod
  | _, [] => 0
  end.

Lemma fetch_continuous_spec p t n sh : length sh = n -> size_dim_ok t n = true ->
  forall idx d off s, idx <> [] -> (d + length idx)%nat = n ->
  fetch_continuous p t n sh d off idx s =
  (let '(es, s1) := moves p (skipn d sh) d idx s in Some (horner off (skipn d sh) es, s1)).
Proof.
  intros L H. induction idx as [|i idx IH]; intros d off s NE D; [contradiction|].
  cbn [length] in D. rewrite (skipn_nth sh d) by lia. cbn [fetch_continuous moves].
  rewrite (size_dim_spec t n sh d L H) by lia.
  destruct (do_trans p d (conv p i) (nth d sh 0) s) as [e s1].
  destruct idx as [|j idx].
  - cbn [length] in D. rewrite (skipn_all2 (n:=S d) sh) by lia. cbn. reflexivity.
  - cbn [length] in D. rewrite (size_dim_spec t n sh (S d) L H) by lia.
    rewrite (IH (S d) _ s1) by (cbn [length]; try discriminate; lia).
    rewrite (skipn_nth sh (S d)) by lia.
    destruct (moves p (nth (S d) sh 0 :: skipn (S (S d)) sh) (S d) (j :: idx) s1) as [es s2]. reflexivity.
Qed.

Lemma size_mod_pos : size_mod <> 0. Proof. unfold size_mod. discriminate. Qed.

Lemma horner_spec sh : forall off es, length es = length sh -> sh <> [] ->
  horner off sh es = (off * cells (tl sh) + offset sh es) mod size_mod.
Proof.
  induction sh as [|n sh IH]; intros off es L NE; [contradiction|].
  destruct es as [|e es]; [discriminate|]. cbn [length] in L.
  destruct sh as [|n' sh].
  - destruct es; [|discriminate]. cbn [horner tl cells offset fold_right].
    unfold cells; cbn [fold_right]. f_equal. lia.
  - change (horner off (n :: n' :: sh) (e :: es)) with (horner (wrap_mul (off + e) n') (n' :: sh) es). rewrite IH by (try discriminate; lia). cbn [tl].
    change (offset (n :: n' :: sh) (e :: es)) with (e * cells (n' :: sh) + offset (n' :: sh) es).
    change (cells (n' :: sh)) with (n' * cells sh). unfold wrap_mul.
    pose proof size_mod_pos.
    rewrite <- (N.add_mod_idemp_l (_ * cells sh)) by assumption.
    rewrite N.mul_mod_idemp_l by assumption.
    rewrite N.add_mod_idemp_l by assumption. f_equal. lia.
Qed.

Lemma offset_lt sh : forall es, inside sh es -> offset sh es < cells sh.
Proof.
  unfold inside. induction sh as [|n sh IH]; intros es H; inversion H; subst; cbn.
  - lia.
  - specialize (IH _ H4). unfold cells in *. cbn [fold_right].
    assert (0 < fold_right N.mul 1 sh) by lia. nia.
Qed.

Lemma offset_onto sh : forall k, k < cells sh -> exists es, inside sh es /\ offset sh es = k.
Proof.
  unfold inside. induction sh as [|n sh IH]; intros k H.
  - exists []. split; [constructor|]. unfold cells in H; cbn in *. lia.
  - unfold cells in *. cbn [fold_right] in H. set (c := fold_right N.mul 1 sh) in *.
    assert (c <> 0) by (intros E; rewrite E in H; lia).
    destruct (IH (k mod c)) as [es [A B]].
    { apply N.mod_lt. assumption. }
    exists (k / c :: es). split.
    + constructor; [|exact A]. apply N.div_lt_upper_bound; [assumption|]. lia.
    + cbn [offset]. fold c. rewrite B. pose proof (N.div_mod k c H0). lia.
Qed.

Lemma fetch_generic_spec p : forall ls const sh d pre dead idx s,
  length sh = length ls -> length idx = length ls -> idx <> [] ->
  generic_ok ls const (length idx) = true ->
  fetch_generic p ls sh d pre dead idx s =
  (let '(es, s1) := moves p sh d idx s in
   if insideb sh es
   then Some (Elem (pre ++ es), dead || existsb (fun t => match t_rows t with Owning => true | _ => false end) (removelast ls), s1)
   else None).
Proof.
  induction ls as [|t ls IH]; intros const sh d pre dead idx s L1 L2 NE G.
  - destruct idx; [contradiction | discriminate].
  - destruct sh as [|n sh]; [discriminate|]. destruct idx as [|i idx]; [contradiction|].
    cbn [length] in L1, L2. cbn [length generic_ok] in G.
    apply andb_true_iff in G as [G G3]. apply andb_true_iff in G as [G1 G2].
    cbn [fetch_generic moves].
    rewrite (size_dim_spec t (length (t :: ls)) (n :: sh) 0) by (cbn [length] in *; try assumption; lia).
    cbn [nth].
    destruct (do_trans p d (conv p i) n s) as [e s1].
    destruct (e <? n) eqn:E.
    + destruct idx as [|j idx].
      * destruct ls; [|discriminate]. destruct sh; [|discriminate]. cbn. rewrite E. cbn.
        rewrite orb_false_r. reflexivity.
      * destruct ls as [|t' ls]; [discriminate|].
        rewrite (IH _ sh (S d) (pre ++ [e]) _ (j :: idx) s1 ltac:(lia) ltac:(lia) ltac:(discriminate) G3).
        destruct (moves p sh (S d) (j :: idx) s1) as [es s2]. cbn [insideb]. rewrite E. cbn [andb].
        destruct (insideb sh es); [|reflexivity].
        rewrite <- app_assoc. cbn [app]. change (removelast (t :: t' :: ls)) with (t :: removelast (t' :: ls)).
        cbn [existsb]. rewrite orb_assoc. reflexivity.
    + destruct (moves p sh (S d) idx s1) as [es s2]. cbn [insideb]. rewrite E. reflexivity.
Qed.

Lemma lasting_removelast (ls : list traits) : Forall (fun t => t_rows t <> Owning) ls ->
  existsb (fun t => match t_rows t with Owning => true | _ => false end) (removelast ls) = false.
Proof.
  induction ls as [|t ls IH]; intros H; [reflexivity|]. inversion H; subst.
  destruct ls as [|t' ls]; [reflexivity|].
  change (removelast (t :: t' :: ls)) with (t :: removelast (t' :: ls)). cbn [existsb].
  rewrite IH by assumption. destruct (t_rows t); [reflexivity | reflexivity | contradiction].
Qed.

(* what load does, whatever the kind of the container *)
Definition generic (c : container V) : bool := match t_category (top c) with Continuous => false | _ => true end.
Definition finish (p : smp) (c : container V) (x : bool * St) (idx : list Z) : out R :=
  match x with
  | (false, s1) => match bound p with Some f => let '(r, s2) := f s1 in Got r s2 | None => Thrown s1 end
  | (true, s1) =>
      let '(es, s2) := moves p (shape c) 0 idx s1 in
      let v := if generic c
               then if insideb (shape c) es then Some (elems c es) else None
               else let k := offset (shape c) es mod size_mod in
                    if k <? cells (shape c) then Some (memory c k) else None in
      match v with
      | None => Bad
      | Some v => match value p with Some f => let '(r, s3) := f v s2 in Got r s3 | None => Got (plain p v) s2 end
      end
  end.

Lemma load_spec (p : smp) (c : container V) idx s : honest c -> lasting c -> length idx = dims c -> load_ok c (length idx) = true ->
  load p c idx s = finish p c (checks p (shape c) 0 idx s) idx.
Proof.
  intros (L & F & _ & M) La LI OK. unfold load. rewrite OK.
  unfold load_ok, at_ok in OK. apply andb_true_iff in OK as [OK1 OK2].
  apply andb_true_iff in OK1 as [OK1 OK3]. apply andb_true_iff in OK1 as [OK0 OK1].
  assert (idx <> []) as NE. { intros ->. discriminate. }
  rewrite (check_bounds_spec p (top c) (dims c) (shape c)) by (unfold dims in *; try assumption; cbn; lia).
  cbn [skipn]. unfold finish. destruct (checks p (shape c) 0 idx s) as [[|] s1]; [|reflexivity].
  unfold fetch, generic. destruct (t_category (top c)) eqn:E.
  1,2: rewrite (fetch_generic_spec p (levels c) true (shape c) 0 [] false idx s1) by (unfold dims in *; assumption || lia);
    pose proof (moves_length p (shape c) 0 idx s1) as ML;
    destruct (moves p (shape c) 0 idx s1) as [es s2];
    destruct (insideb (shape c) es); [|reflexivity];
    rewrite (lasting_removelast (levels c) La); reflexivity.
  rewrite (fetch_continuous_spec p (top c) (dims c) (shape c)) by (unfold dims in *; try assumption; cbn; lia).
  cbn [skipn]. pose proof (moves_length p (shape c) 0 idx s1) as ML.
  destruct (moves p (shape c) 0 idx s1) as [es s2]. cbn [fst] in ML.
  rewrite horner_spec.
  - cbn [N.mul N.add read]. reflexivity.
  - apply ML. unfold dims in LI. lia.
  - intros E0. rewrite E0 in L. unfold dims in LI. destruct idx; [contradiction|]. cbn in *. lia.
Qed.

Lemma value_inside (c : container V) (es : list N) : honest c -> inside (shape c) es ->
  (let k := offset (shape c) es mod size_mod in if k <? cells (shape c) then Some (memory c k) else None) = Some (elems c es).
Proof.
  intros (L & F & _ & M) I. pose proof (offset_lt _ _ I) as H. cbv zeta.
  assert (offset (shape c) es mod size_mod = offset (shape c) es) as ->.
  { apply N.mod_small. unfold size_mod, cells in *. lia. }
  assert (offset (shape c) es <? cells (shape c) = true) as -> by (apply N.ltb_lt; assumption).
  f_equal. apply M, I.
Qed.
End Proofs.

Section Recording.
Context {V R : Type} (p : plan V R).
Let q := recording p.

Lemma do_check_rec d i n log : do_check q d i n log =
  (passes p d i n, match p_check p with Some _ => log ++ [Check d i n] | None => log end).
Proof. unfold do_check, q, recording, passes, to_size. cbn. destruct (p_check p); reflexivity. Qed.
Lemma do_trans_rec d i n log : do_trans q d i n log =
  (goes_to p d i n, match p_move p with Some _ => log ++ [Move d i n] | None => log end).
Proof. unfold do_trans, q, recording, goes_to, to_size. cbn. destruct (p_move p); reflexivity. Qed.

Lemma checks_all : forall idx sh d log, length idx = length sh ->
  (forall k, (k < length idx)%nat -> passes p (d + k) (p_conv p (nth k idx 0%Z)) (nth k sh 0) = true) ->
  checks q sh d idx log =
  (true, log ++ match p_check p with
                | Some _ => map (fun k => Check (d + k) (p_conv p (nth k idx 0%Z)) (nth k sh 0)) (seq 0 (length idx))
                | None => [] end).
Proof.
  induction idx as [|i idx IH]; intros [|n sh] d log L H; cbn [length] in L; try lia.
  - cbn. destruct (p_check p); rewrite app_nil_r; reflexivity.
  - cbn [checks]. rewrite do_check_rec. change (conv q i) with (p_conv p i).
    pose proof (H O ltac:(cbn; lia)) as H0. cbn [nth] in H0. rewrite Nat.add_0_r in H0. rewrite H0.
    rewrite IH; [| lia |].
    + f_equal. destruct (p_check p); [|reflexivity].
      cbn [length seq map nth]. rewrite Nat.add_0_r, <- app_assoc. cbn [app]. do 2 f_equal.
      rewrite <- seq_shift, map_map. apply map_ext. intros k. rewrite <- Nat.add_succ_comm. reflexivity.
    + intros k K. specialize (H (S k) ltac:(cbn; lia)). cbn [nth] in H. rewrite <- H. f_equal. lia.
Qed.

Lemma checks_fail : forall idx sh d log j, length idx = length sh -> (j < length idx)%nat ->
  (forall k, (k < j)%nat -> passes p (d + k) (p_conv p (nth k idx 0%Z)) (nth k sh 0) = true) ->
  passes p (d + j) (p_conv p (nth j idx 0%Z)) (nth j sh 0) = false ->
  checks q sh d idx log =
  (false, log ++ match p_check p with
                | Some _ => map (fun k => Check (d + k) (p_conv p (nth k idx 0%Z)) (nth k sh 0)) (seq 0 (S j))
                | None => [] end).
Proof.
  induction idx as [|i idx IH]; intros [|n sh] d log j L J H F; cbn [length] in L, J; try lia.
  cbn [checks]. rewrite do_check_rec. change (conv q i) with (p_conv p i).
  destruct j as [|j].
  - cbn [nth] in F. rewrite Nat.add_0_r in F. rewrite F.
    destruct (p_check p); cbn; rewrite ?Nat.add_0_r, ?app_nil_r; reflexivity.
  - pose proof (H O ltac:(lia)) as H0. cbn [nth] in H0. rewrite Nat.add_0_r in H0. rewrite H0.
    rewrite IH with (j := j); [| lia | lia | |].
    + f_equal. destruct (p_check p); [|reflexivity].
      change (seq 0 (S (S j))) with (O :: seq 1 (S j)). cbn [map nth]. rewrite Nat.add_0_r, <- app_assoc. cbn [app]. do 2 f_equal.
      rewrite <- (seq_shift (S j) 0), map_map. apply map_ext. intros k. rewrite <- Nat.add_succ_comm. reflexivity.
    + intros k K. specialize (H (S k) ltac:(lia)). cbn [nth] in H. rewrite <- H. f_equal. lia.
    + cbn [nth] in F. rewrite <- F. f_equal. lia.
Qed.

Lemma moves_rec : forall idx sh d log, length idx = length sh ->
  moves q sh d idx log =
  (map (fun k => goes_to p (d + k) (p_conv p (nth k idx 0%Z)) (nth k sh 0)) (seq 0 (length idx)),
   log ++ match p_move p with
          | Some _ => map (fun k => Move (d + k) (p_conv p (nth k idx 0%Z)) (nth k sh 0)) (seq 0 (length idx))
          | None => [] end).
Proof.
  induction idx as [|i idx IH]; intros [|n sh] d log L; cbn [length] in L; try lia.
  - cbn. destruct (p_move p); rewrite app_nil_r; reflexivity.
  - cbn [moves]. rewrite do_trans_rec. change (conv q i) with (p_conv p i).
    rewrite IH by lia. f_equal.
    + cbn [length seq map nth]. rewrite Nat.add_0_r. f_equal.
      rewrite <- seq_shift, map_map. apply map_ext. intros k. rewrite <- Nat.add_succ_comm. reflexivity.
    + destruct (p_move p); [|reflexivity].
      cbn [length seq map nth]. rewrite Nat.add_0_r, <- app_assoc. cbn [app]. do 2 f_equal.
      rewrite <- seq_shift, map_map. apply map_ext. intros k. rewrite <- Nat.add_succ_comm. reflexivity.
Qed.
End Recording.

Lemma moves_top {V R} (p : plan V R) idx sh log : length idx = length sh ->
  moves (recording p) sh 0 idx log = (targets p sh idx, log ++ move_calls p sh idx).
Proof. intros L. rewrite (moves_rec p idx sh 0 log L). reflexivity. Qed.
