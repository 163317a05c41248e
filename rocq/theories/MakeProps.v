(* C103: what the constructors, reshape and conversions of vectors build. *)
From Coq Require Import NArith ZArith List Bool Lia Arith.
Import ListNotations.
From Verif Require Import MakeModel MakeSpec MakeProofs.
Local Open Scope N_scope.

(* The sizes of a vector built from nested lists: for each level, the length of
   the longest list there. *)
Theorem C103_sizes_are_longest : forall A d (l : il A d),
  length (sizes_of A d l) = S d
  /\ forall k, (k <= d)%nat -> greatest (lengths A k d l) (nth k (sizes_of A d l) 0).
Proof. exact sizes_spec. Qed.
Print Assumptions C103_sizes_are_longest.
Example C103_sizes_example :
  sizes_of N 2 [[[1; 2]; [3]]; [[4; 5; 6]; [7]]] = [2; 2; 3] /\ lengths N 2 2 [[[1; 2]; [3]]; [[4; 5; 6]; [7]]] = [2; 1; 3; 1].
Proof. split; reflexivity. Qed.

(* A nested list is accepted exactly if the lists of every outer level are equally
   long and no innermost list is empty.  Then the vector holds at every index the
   value written there, and short innermost lists are continued with their last
   value; whatever goes wrong on the way, everything is undone. *)
Theorem C103_nested_lists : forall A fresh d (l : il A d),
  let sz := sizes_of A d l in
  volume sz <> 0 -> volume sz < 2 ^ 64 ->
  (regular A d l ->
     exists c, builds A fresh (make_ilist A fresh d l) sz c /\ N.of_nat (length c) = volume sz
       /\ forall idx, within sz idx -> nth_error c (N.to_nat (place sz idx)) = written A d l idx)
  /\ (~ regular A d l -> forall sch, throws (volume sz) sch = false ->
       exists t, make_ilist A fresh d l true sch = Failed A Argument t).
Proof.
  intros A fresh d l sz V L. pose proof (sizes_bounded A d l) as B. split.
  - intros R. exists (flat A d sz l). pose proof (proj2 (fits_iff A d l V) R) as F. split; [|split].
    + apply ilist_builds; assumption.
    + apply flat_len; assumption.
    + intros idx W. apply flat_nth; assumption.
  - intros R sch T. assert (F : fitsb A d sz l = false).
    { destruct (fitsb A d sz l) eqn:F; [|reflexivity]. exfalso. apply R. apply (fits_iff A d l V). exact F. }
    assert (N0 : sz <> []) by (intros E; destruct B as [B _]; fold sz in B; rewrite E in B; discriminate).
    unfold make_ilist. fold sz. rewrite (total_exact sz N0 L).
    destruct (fits_not A fresh (volume sz) d sz l (Filling A [] sch [Alloc A (volume sz)]) B F) as [f' Q];
      [cbn; lia | exact T |].
    assert (G : in_new_block A sz (volume sz) true sch (copy_nested A fresh (volume sz) d sz l)
      = Failed A Argument (tr A f' ++ unmakes A f' ++ [Free A (volume sz)])).
    { unfold in_new_block. rewrite Q. reflexivity. }
    unfold if_any. destruct sz as [|a [|b q]]; [contradiction | eexists; exact G |].
    destruct (N.eqb_spec (volume (a :: b :: q)) 0) as [E|E]; [contradiction | eexists; exact G].
Qed.
Print Assumptions C103_nested_lists.
Example C103_nested_lists_example :
  regular N 1 [[1; 2; 3]; [4]] /\ ~ regular N 1 [[1; 2; 3]; []] /\ ~ regular N 2 [[[1]]; [[1]; [2]]]
  /\ make_ilist N 0 1 [[1; 2; 3]; [4]] true [] =
       Made N (Vec N [2; 3] [1; 2; 3; 4; 4; 4] 6)
         [Alloc N 6; Copy N 0 1; Copy N 1 2; Copy N 2 3; Copy N 3 4; Copy N 4 4; Copy N 5 4]
  /\ make_ilist N 0 1 [[1; 2]; []] true [] =
       Failed N Argument [Alloc N 4; Copy N 0 1; Copy N 1 2; Unmake N 0; Unmake N 1; Free N 4]
  /\ make_ilist N 0 2 [[[1]]; [[1]; [2]]] true [] = Failed N Argument [Alloc N 4; Free N 4].
Proof.
  assert (R : forall d (l : il N d), volume (sizes_of N d l) <> 0 -> fitsb N d (sizes_of N d l) l = false -> ~ regular N d l).
  { intros d l V F H. apply (fits_iff N d l V) in H. congruence. }
  repeat split.
  - intros k a b K Ha Hb. assert (k = 0)%nat by lia. subst k. cbn in *. intuition congruence.
  - intros a Ha. cbn in Ha. intuition (subst; discriminate).
  - apply R; [discriminate | reflexivity].
  - apply R; [discriminate | reflexivity].
Qed.

(* Lists without any element give an empty vector. *)
Theorem C103_empty_lists : forall A fresh d (l : il A d) sch, volume (sizes_of A d l) = 0 ->
  exists v t, make_ilist A fresh d l true sch = Made A v t /\ live A v = [] /\ sizes A v = sizes_of A d l /\ cap A v = 0.
Proof.
  intros A fresh d l sch V. pose proof (sizes_spec A d l) as [S1 S2]. unfold make_ilist. set (sz := sizes_of A d l) in *.
  rewrite (total_zero sz V). destruct d as [|d].
  - destruct (S2 0%nat (Nat.le_refl _)) as [G _]. specialize (G _ (or_introl eq_refl)).
    destruct sz as [|s [|b q]]; try discriminate. cbn in V, G. assert (s = 0) by lia. subst s.
    assert (l = []) by (destruct l; [reflexivity | cbn in G; lia]). subst l. eexists _, _. repeat split.
  - destruct sz as [|s [|b q]]; try discriminate. eexists _, _. repeat split.
Qed.
Print Assumptions C103_empty_lists.
Example C103_empty_lists_example : volume (sizes_of N 1 [[]; []]) = 0 /\ sizes_of N 1 [[]; []] = [2; 0].
Proof. split; reflexivity. Qed.

(* Whatever is thrown, in any order, a constructor from lists leaves nothing
   behind and touches nothing outside of its block. *)
Theorem C103_lists_are_cleaned_up : forall A fresh d (l : il A d) mem sch,
  volume (sizes_of A d l) < 2 ^ 64 ->
  clean A fresh (make_ilist A fresh d l mem sch)
  /\ match make_ilist A fresh d l mem sch with
     | Made _ v _ => sound A v /\ sizes A v = sizes_of A d l
     | Failed _ e _ => e = Argument \/ e = Element \/ (e = BadAlloc /\ mem = false)
     | Undefined _ => False
     end.
Proof.
  intros A fresh d l mem sch L. pose proof (sizes_bounded A d l) as B.
  set (sz := sizes_of A d l) in *.
  assert (N0 : sz <> []) by (intros E; destruct B as [B _]; rewrite E in B; discriminate).
  assert (G : clean A fresh (in_new_block A sz (volume sz) mem sch (copy_nested A fresh (volume sz) d sz l))
    /\ match in_new_block A sz (volume sz) mem sch (copy_nested A fresh (volume sz) d sz l) with
       | Made _ v _ => sound A v /\ sizes A v = sz
       | Failed _ e _ => e = Argument \/ e = Element \/ (e = BadAlloc /\ mem = false)
       | Undefined _ => False
       end).
  { split.
    - apply block_clean; [apply keeps_nested|]. intros f E1 E2 O.
      pose proof (nested_end A fresh (volume sz) d sz l f B) as H. rewrite E1 in H. cbn [length] in H.
      specialize (H ltac:(lia)). rewrite O in H. exact H.
    - unfold in_new_block. destruct mem; [| right; right; split; reflexivity].
      pose proof (nested_end A fresh (volume sz) d sz l (Filling A [] sch [Alloc A (volume sz)]) B ltac:(cbn; lia)) as H.
      destruct (copy_nested A fresh (volume sz) d sz l (Filling A [] sch [Alloc A (volume sz)])) as [f|e f|].
      + cbn in H. unfold sound. cbn [live sizes cap]. repeat split; lia.
      + tauto.
      + exact H. }
  unfold make_ilist. fold sz. rewrite (total_exact sz N0 L). split; [apply any_clean; apply G|].
  unfold if_any. destruct G as [_ G]. destruct sz as [|a [|b q]]; [contradiction | exact G |].
  destruct (N.eqb_spec (volume (a :: b :: q)) 0) as [E|E]; [|exact G].
  unfold sound. cbn [live sizes cap length]. rewrite E. repeat split; lia.
Qed.
Print Assumptions C103_lists_are_cleaned_up.
Example C103_lists_are_cleaned_up_example :
  make_ilist N 0 1 [[1; 2; 3]; [4]] true [false; false; false; false; true] =
    Failed N Element [Alloc N 6; Copy N 0 1; Copy N 1 2; Copy N 2 3; Copy N 3 4; Unmake N 0; Unmake N 1; Unmake N 2; Unmake N 3; Free N 6].
Proof. reflexivity. Qed.

(* The other constructors. *)
Theorem C103_from_sizes : forall A fresh sz, sz <> [] -> volume sz < 2 ^ 64 ->
  builds A fresh (make_sizes A fresh sz (NoArg A)) sz (repeat fresh (N.to_nat (volume sz)))
  /\ forall v, builds A fresh (make_sizes A fresh sz (ByCopy A v)) sz (repeat v (N.to_nat (volume sz))).
Proof.
  intros A fresh sz H L. split.
  - exact (sizes_builds A fresh sz (NoArg A) H L).
  - intros v. exact (sizes_builds A fresh sz (ByCopy A v) H L).
Qed.
Print Assumptions C103_from_sizes.
Example C103_from_sizes_example :
  make_sizes N 0 [2; 2] (ByCopy N 5) true [] =
    Made N (Vec N [2; 2] [5; 5; 5; 5] 4) [Alloc N 4; Copy N 0 5; Copy N 1 5; Copy N 2 5; Copy N 3 5]
  /\ make_sizes N 0 [0; 2] (NoArg N) true [] = Made N (Vec N [0; 2] [] 0) []
  /\ make_sizes N 0 [0] (NoArg N) true [] = Made N (Vec N [0] [] 0) [Alloc N 0].
Proof. repeat split. Qed.

Theorem C103_from_range : forall A fresh sz (l : list A), sz <> [] -> volume sz < 2 ^ 63 ->
  (N.of_nat (length l) = volume sz -> builds A fresh (make_range A fresh sz l) sz l)
  /\ (N.of_nat (length l) <> volume sz -> forall mem sch, make_range A fresh sz l mem sch = Failed A Argument [])
  /\ builds A fresh (make_range_1d A fresh (N.of_nat (length l)) l) [N.of_nat (length l)] l.
Proof.
  intros A fresh sz l H L. split; [|split].
  - intros E. apply (range_nd_builds A fresh sz l H L E).
  - intros E mem sch. apply range_nd_refused; assumption.
  - exact (copy_builds A fresh [N.of_nat (length l)] l).
Qed.
Print Assumptions C103_from_range.
Example C103_from_range_example :
  make_range N 0 [2; 2] [1; 2; 3; 4] true [] =
    Made N (Vec N [2; 2] [1; 2; 3; 4] 4) [Alloc N 4; Copy N 0 1; Copy N 1 2; Copy N 2 3; Copy N 3 4]
  /\ make_range N 0 [2; 2] [1; 2; 3] true [] = Failed N Argument [].
Proof. split; reflexivity. Qed.

(* Sizes given as a range: of the right length they are the sizes; of another one
   the constructor throws, if there is one dimension. *)
Theorem C103_from_size_range : forall A fresh ext s,
  (ext <> [] -> volume ext < 2 ^ 64 ->
     builds A fresh (make_size_range A fresh (length ext) ext s) ext (repeat (made_of A fresh s) (N.to_nat (volume ext))))
  /\ (length ext <> 1%nat -> forall mem sch, make_size_range A fresh 1 ext s mem sch = Failed A OutOfRange []).
Proof.
  intros A fresh ext s. split.
  - intros H L. destruct ext as [|a [|b q]]; [contradiction | |].
    + cbn in L. pose proof (value_builds A fresh [a] a s) as G. cbn [volume fold_right]. rewrite N.mul_1_r. exact G.
    + unfold make_size_range. change (Nat.eqb (length (a :: b :: q)) 1) with false. cbv iota.
      rewrite Nat.leb_refl, Nat.sub_diag. cbn [repeat]. rewrite app_nil_r. apply sizes_builds; assumption.
  - intros H mem sch. unfold make_size_range. cbn [Nat.eqb].
    destruct ext as [|a [|b q]]; [reflexivity | contradiction | reflexivity].
Qed.
Print Assumptions C103_from_size_range.
Example C103_from_size_range_example :
  make_size_range N 0 2 [1; 2] (ByCopy N 5) true [] = Made N (Vec N [1; 2] [5; 5] 2) [Alloc N 2; Copy N 0 5; Copy N 1 5]
  /\ make_size_range N 0 1 [1; 2] (ByCopy N 5) true [] = Failed N OutOfRange [].
Proof. split; reflexivity. Qed.

(* A view or proxy is copied index by index, and whether its memory is continuous
   makes no difference. *)
Theorem C103_from_rows : forall A fresh d (r : rows A d),
  let sz := row_sizes A d r in
  box A d sz (nested A d r) -> (forall l, plain A d r = Some l -> l = leaves A d (nested A d r)) -> volume sz < 2 ^ 64 ->
  (exists c, builds A fresh (make_rows A fresh d r) sz c /\ N.of_nat (length c) = volume sz
     /\ forall idx, within sz idx -> nth_error c (N.to_nat (place sz idx)) = written A d (nested A d r) idx)
  /\ forall mem sch, make_rows A fresh d r mem sch = make_rows A fresh d (Rows A d sz None (nested A d r)) mem sch.
Proof.
  intros A fresh d r sz B P L. split.
  - exists (leaves A d (nested A d r)). split; [|split].
    + apply (rows_builds A fresh d r B P L).
    + apply leaves_len. exact B.
    + intros idx W. apply leaves_nth; assumption.
  - intros mem sch. unfold make_rows. cbn [row_sizes plain nested]. fold sz.
    destruct (plain A d r) as [l|] eqn:E; [|reflexivity]. rewrite (P l eq_refl). f_equal.
    unfold from_range, in_new_block. destruct mem; [|reflexivity]. rewrite rows_call. reflexivity.
Qed.
Print Assumptions C103_from_rows.
Example C103_from_rows_example :
  box N 1 [2; 2] [[1; 2]; [3; 4]]
  /\ make_rows N 0 1 (Rows N 1 [2; 2] (Some [1; 2; 3; 4]) [[1; 2]; [3; 4]]) true [] =
       Made N (Vec N [2; 2] [1; 2; 3; 4] 4) [Alloc N 4; Copy N 0 1; Copy N 1 2; Copy N 2 3; Copy N 3 4].
Proof.
  split; [|reflexivity]. split; [reflexivity|].
  intros [|[|k]] a K Ha; [| | lia]; cbn in *; intuition congruence.
Qed.

(* Reshape copies the elements in their order, and refuses other volumes. *)
Theorem C103_reshape : forall A fresh v ext, sound A v -> sizes A v <> [] -> volume (sizes A v) < 2 ^ 63 ->
  ext <> [] -> volume ext < 2 ^ 64 ->
  (volume ext = volume (sizes A v) -> builds A fresh (reshape A fresh v ext) ext (live A v))
  /\ (volume ext <> volume (sizes A v) -> forall mem sch, reshape A fresh v ext mem sch = Failed A Argument []).
Proof.
  intros A fresh v ext [S1 S2] N1 L1 N2 L2.
  assert (T : forall mem sch, reshape A fresh v ext mem sch =
    if volume ext =? volume (sizes A v) then match ext with [n] => make_range_1d A fresh n (live A v) mem sch | _ => make_range A fresh ext (live A v) mem sch end
    else Failed A Argument []).
  { intros mem sch. unfold reshape, total_size. rewrite dims_total_eq, !total_exact; try assumption; [reflexivity|].
    unfold size_mod. lia. }
  split.
  - intros E. assert (F : forall mem sch, match ext with [n] => make_range_1d A fresh n (live A v) mem sch | _ => make_range A fresh ext (live A v) mem sch end = reshape A fresh v ext mem sch).
    { intros mem sch. rewrite T, E, N.eqb_refl. reflexivity. }
    refine (builds_ext A fresh _ _ ext (live A v) F _).
    destruct ext as [|a [|b q]]; [contradiction | |].
    + cbn in E. rewrite N.mul_1_r in E.
      replace a with (N.of_nat (length (live A v))) by congruence.
      exact (copy_builds A fresh [N.of_nat (length (live A v))] (live A v)).
    + refine (range_nd_builds A fresh (a :: b :: q) (live A v) _ _ _); [discriminate | lia | lia].
  - intros E mem sch. rewrite T. destruct (N.eqb_spec (volume ext) (volume (sizes A v))) as [Q|Q]; [contradiction | reflexivity].
Qed.
Print Assumptions C103_reshape.
Example C103_reshape_example :
  sound N (Vec N [2; 3] [1; 2; 3; 4; 5; 6] 8)
  /\ (exists t, reshape N 0 (Vec N [2; 3] [1; 2; 3; 4; 5; 6] 8) [3; 2] true [] = Made N (Vec N [3; 2] [1; 2; 3; 4; 5; 6] 6) t)
  /\ reshape N 0 (Vec N [2; 3] [1; 2; 3; 4; 5; 6] 8) [2; 2] true [] = Failed N Argument [].
Proof. split; [split; cbn; lia|]. split; [eexists; reflexivity | reflexivity]. Qed.

(* On an rvalue, it moves the block instead: nothing is copied or allocated, the
   old vector is empty, and reshaping back gives the first vector again. *)
Theorem C103_reshape_moves : forall A v ext, sound A v -> sizes A v <> [] -> volume (sizes A v) < 2 ^ 64 ->
  ext <> [] -> volume ext < 2 ^ 64 ->
  (volume ext = volume (sizes A v) -> exists v' o, reshape_move A v ext = Some (v', o)
     /\ v' = Vec A ext (live A v) (cap A v) /\ sound A v'
     /\ live A o = [] /\ cap A o = 0 /\ volume (sizes A o) = 0 /\ length (sizes A o) = length (sizes A v)
     /\ exists o', reshape_move A v' (sizes A v) = Some (v, o'))
  /\ (volume ext <> volume (sizes A v) -> reshape_move A v ext = None).
Proof.
  intros A v ext [S1 S2] N1 L1 N2 L2.
  assert (T : forall w e, sizes A w <> [] -> volume (sizes A w) < 2 ^ 64 -> e <> [] -> volume e < 2 ^ 64 ->
    reshape_move A w e = if volume e =? volume (sizes A w) then Some (Vec A e (live A w) (cap A w), tidy A w) else None).
  { intros w e H1 H2 H3 H4. unfold reshape_move, total_size. rewrite dims_total_eq, !total_exact by assumption.
    destruct (volume e =? volume (sizes A w)); [|reflexivity].
    destruct e as [|a [|b q]]; [contradiction | | reflexivity]. cbn [volume fold_right]. rewrite N.mul_1_r. reflexivity. }
  split.
  - intros E. exists (Vec A ext (live A v) (cap A v)), (tidy A v). rewrite T by assumption. rewrite E, N.eqb_refl.
    split; [reflexivity|]. split; [reflexivity|]. split; [split; cbn [live sizes cap]; lia|].
    split; [reflexivity|]. split; [reflexivity|].
    split; [|split].
    + unfold tidy. cbn [sizes]. destruct (sizes A v); [contradiction | reflexivity].
    + unfold tidy. cbn [sizes]. destruct (sizes A v); reflexivity.
    + rewrite T by assumption. cbn [sizes live cap]. rewrite E, N.eqb_refl. eexists. destruct v; reflexivity.
  - intros E. rewrite T by assumption. destruct (N.eqb_spec (volume ext) (volume (sizes A v))) as [Q|Q]; [contradiction | reflexivity].
Qed.
Print Assumptions C103_reshape_moves.
Example C103_reshape_moves_example :
  reshape_move N (Vec N [2; 3] [1; 2; 3; 4; 5; 6] 8) [6] =
    Some (Vec N [6] [1; 2; 3; 4; 5; 6] 8, Vec N [0; 3] [] 0)
  /\ reshape_move N (Vec N [2; 3] [1; 2; 3; 4; 5; 6] 8) [5] = None.
Proof. split; reflexivity. Qed.

(* From a std::vector: an lvalue is copied and stays; of an rvalue the elements
   are moved, up to the one whose constructor throws. *)
Theorem C103_from_std : forall A fresh taken (l : list A) moved,
  builds A fresh (fun mem sch => fst (from_std A fresh taken l moved mem sch)) [N.of_nat (length l)] l
  /\ forall mem sch,
     let left := snd (from_std A fresh taken l moved mem sch) in
     (moved = false -> left = l)
     /\ (mem = false -> left = l)
     /\ (moved = true -> mem = true -> throws (N.of_nat (length l)) sch = false -> left = map taken l)
     /\ (moved = true -> mem = true -> forall k, (k < length l)%nat ->
           nth k sch false = true -> (forall i, (i < k)%nat -> nth i sch false = false) ->
           left = map taken (firstn k l) ++ skipn k l).
Proof.
  intros A fresh taken l moved. split.
  - pose proof (range_builds A fresh [N.of_nat (length l)] (map (if moved then ByMove A else ByCopy A) l)) as H.
    rewrite map_length in H. replace (map (made_of A fresh) (map (if moved then ByMove A else ByCopy A) l)) with l in H.
    + exact H.
    + destruct moved; [rewrite map_mo_mv | rewrite map_mo_bc]; reflexivity.
  - intros mem sch left. unfold left, from_std. cbn [snd fst]. clear left.
    unfold from_range, in_new_block.
    set (ll := map (if moved then ByMove A else ByCopy A) l). set (n := N.of_nat (length l)).
    assert (LL : length ll = length l) by (unfold ll; apply map_length).
    destruct mem; [| unfold moves; cbn; repeat split; intros; try reflexivity; discriminate].
    set (f0 := Filling A [] sch [Alloc A n]).
    destruct (call_fits A fresh n ll f0) as [F1 F2]; [unfold f0, n; cbn; lia|].
    rewrite LL in F1, F2. fold n in F1, F2.
    assert (TH : forall k, (k < length l)%nat -> nth k sch false = true -> (forall i, (i < k)%nat -> nth i sch false = false) ->
      let r := match construct_all A fresh n f0 ll with
        | Filled _ f => Made A (Vec A [n] (made A f) n) (tr A f)
        | Threw _ e f => Failed A e (tr A f ++ unmakes A f ++ [Free A n])
        | Over _ => Undefined A end in
      moves A r = if moved then k else 0%nat).
    { intros k K1 K2 K3. cbv zeta. destruct (call_threw_at A fresh n ll f0 k) as (f' & G1 & G2 & G3);
        [unfold f0, n; cbn; lia | lia | exact K2 | exact K3 |].
      rewrite G1. unfold moves. rewrite G3. unfold unmakes.
      rewrite !filter_app, unmakes_moves. unfold f0. cbn [tr made length filter app].
      unfold ll. rewrite firstn_map. destruct moved.
      - rewrite app_nil_r, moves_events, firstn_length. lia.
      - rewrite copies_events. reflexivity. }
    destruct (throws n sch) eqn:T.
    + destruct (throws_first n sch T) as (k & K1 & K2 & K3). unfold n in K1. rewrite Nat2N.id in K1.
      specialize (TH k K1 K2 K3) as TK. cbv zeta in TK. rewrite TK.
      repeat split; intros; try discriminate; subst moved; [reflexivity|].
      replace k0 with k; [reflexivity|].
      destruct (Nat.lt_trichotomy k k0) as [Q|[Q|Q]]; [| exact Q |].
      * match goal with H : forall i, (i < k0)%nat -> _ |- _ => rewrite (H k Q) in K2 end. discriminate.
      * rewrite (K3 k0 Q) in *. discriminate.
    + clear F2. rewrite (F1 T). clear F1 TH. unfold moves, f0. cbn [made tr app filter length]. unfold ll.
      destruct moved.
      * rewrite moves_events, firstn_all, skipn_all, app_nil_r.
        repeat split; intros; try discriminate; try reflexivity.
        exfalso. unfold throws, n in T. rewrite Nat2N.id in T.
        assert (C : existsb (fun b : bool => b) (firstn (length l) sch) = true).
        { apply existsb_exists. exists true. split; [|reflexivity].
          assert (KL : (k < length sch)%nat) by (destruct (Nat.lt_ge_cases k (length sch)) as [Q|Q]; [exact Q | rewrite nth_overflow in *; [discriminate | exact Q]]).
          rewrite <- H2. rewrite <- (firstn_skipn (length l) sch) at 1. rewrite app_nth1 by (rewrite firstn_length; lia).
          apply nth_In. rewrite firstn_length. lia. }
        congruence.
      * rewrite copies_events. repeat split; intros; try discriminate; reflexivity.
Qed.
Print Assumptions C103_from_std.
Example C103_from_std_example :
  from_std N 0 (fun _ => 0) [1; 2; 3] true true [false; false; true] =
    (Failed N Element [Alloc N 3; Move N 0 1; Move N 1 2; Unmake N 0; Unmake N 1; Free N 3], [0; 0; 3]).
Proof. reflexivity. Qed.

(* ---- what one might also expect ---- *)
(* With one dimension a range that is too short gives a vector with elements that
   were never constructed, and one that is too long writes behind the block. *)
Theorem C103_range_length_checked_refuted :
  (exists n (l : list N) v t, make_range_1d N 0 n l true [] = Made N v t /\ ~ sound N v)
  /\ exists n (l : list N), make_range_1d N 0 n l true [] = Undefined N.
Proof.
  split.
  - exists 3, [1], (Vec N [3] [1] 3). eexists. split; [reflexivity|]. intros [H _]. discriminate.
  - exists 1, [1; 2]. reflexivity.
Qed.
Print Assumptions C103_range_length_checked_refuted.

(* Sizes whose product does not fit give an empty vector, not an exception. *)
Theorem C103_large_sizes_refused_refuted :
  exists sz v t, make_sizes N 0 sz (ByCopy N 1) true [] = Made N v t /\ sizes N v = sz /\ live N v = [] /\ ~ sound N v.
Proof.
  exists [2 ^ 32; 2 ^ 32]. eexists _, _. split; [reflexivity|]. repeat split. intros [H _]. discriminate.
Qed.
Print Assumptions C103_large_sizes_refused_refuted.

(* ... and reshape takes them for the same volume. *)
Theorem C103_reshape_keeps_volume_refuted :
  exists v ext v' o, sound N v /\ reshape_move N v ext = Some (v', o) /\ volume ext <> volume (sizes N v) /\ ~ sound N v'.
Proof.
  exists (Vec N [0; 3] [] 0), [2 ^ 32; 2 ^ 32]. eexists _, _. split; [split; reflexivity + (cbn; lia)|].
  split; [reflexivity|]. split; [discriminate|]. intros [H _]. discriminate.
Qed.
Print Assumptions C103_reshape_keeps_volume_refuted.

(* ... and so do nested lists, though they are regular: only the longest
   innermost list is written in full. *)
Theorem C103_large_lists_refused_refuted :
  exists (l : il N 1) v, regular N 1 l /\ make_ilist N 0 1 l true [] = Made N v [] /\ live N v = [] /\ ~ sound N v.
Proof.
  set (m := N.to_nat (2 ^ 32)). assert (M : N.of_nat m = 2 ^ 32) by (unfold m; apply N2Nat.id).
  assert (Mp : exists k, m = S k) by (destruct m; [cbn in M; discriminate | eexists; reflexivity]).
  clearbody m. destruct Mp as [k Ek].
  set (l := repeat 1 m :: repeat [1] k : il N 1).
  assert (L1 : forall a, In a (lengths N 1 1 l) <-> a = 2 ^ 32 \/ (a = 1 /\ (0 < k)%nat)).
  { intros a. unfold l. rewrite lengths_S. cbn [flat_map]. rewrite in_app_iff. cbn [lengths]. rewrite repeat_length, M.
    assert (G : forall k, In a (flat_map (fun l0 : list N => [N.of_nat (length l0)]) (repeat [1] k)) <-> a = 1 /\ (0 < k)%nat).
    { clear. induction k as [|k IH]; cbn [repeat flat_map]; [cbn; split; [tauto | lia]|].
      rewrite in_app_iff, IH. cbn. split; [intros [[H | []]|H]; split; try lia | intros [H _]; left; left; lia]. }
    rewrite G. cbn [In]. intuition lia. }
  assert (L0 : lengths N 0 1 l = [2 ^ 32]).
  { unfold l. rewrite lengths_O. cbn [length]. rewrite repeat_length, <- Ek, M. reflexivity. }
  destruct (sizes_spec N 1 l) as [S1 S2].
  assert (E : sizes_of N 1 l = [2 ^ 32; 2 ^ 32]).
  { destruct (sizes_of N 1 l) as [|a [|b [|c q]]]; try discriminate.
    pose proof (S2 0%nat ltac:(lia)) as [G1 G2]. pose proof (S2 1%nat ltac:(lia)) as [G3 G4]. cbn [nth] in *.
    rewrite L0 in G1, G2. f_equal; [|f_equal].
    - specialize (G1 (2 ^ 32) (or_introl eq_refl)). destruct G2 as [[G2 | []]|G2]; lia.
    - specialize (G3 (2 ^ 32) (proj2 (L1 _) (or_introl eq_refl))). rewrite L1 in G4. lia. }
  exists l, (Vec N [2 ^ 32; 2 ^ 32] [] 0). split; [|split; [|split]].
  - split.
    + intros j a b J Ha Hb. assert (j = 0)%nat by lia. subst j. rewrite L0 in *. cbn in Ha, Hb. intuition congruence.
    + intros a Ha. apply L1 in Ha. lia.
  - unfold make_ilist. rewrite E. reflexivity.
  - reflexivity.
  - intros [H _]. discriminate.
Qed.
Print Assumptions C103_large_lists_refused_refuted.

(* Without an element, lists that do not fit together are not refused. *)
Theorem C103_irregular_lists_refused_refuted :
  exists (l : il N 2) v, make_ilist N 0 2 l true [] = Made N v []
  /\ ~ (forall k a b, (k < 2)%nat -> In a (lengths N k 2 l) -> In b (lengths N k 2 l) -> a = b).
Proof.
  exists [[[]; []]; [[]]]. eexists. split; [reflexivity|].
  intros H. specialize (H 1%nat 2 1 ltac:(lia)). cbn in H. specialize (H ltac:(auto) ltac:(auto)). discriminate.
Qed.
Print Assumptions C103_irregular_lists_refused_refuted.

(* With several dimensions the length of a range of sizes is not checked: too few
   are completed with zeros, too many are written behind the descriptors. *)
Theorem C103_size_range_checked_refuted :
  (exists v t, make_size_range N 0 2 [3] (ByCopy N 1) true [] = Made N v t /\ sizes N v = [3; 0])
  /\ make_size_range N 0 2 [1; 2; 3] (ByCopy N 1) true [] = Undefined N.
Proof. split; [eexists _, _; split|]; reflexivity. Qed.
Print Assumptions C103_size_range_checked_refuted.

(* A conversion of an rvalue to std::vector copies the elements, while one from an
   rvalue moves them. *)
Theorem C103_conversion_moves_refuted :
  exists (taken : N -> N) v l, to_std N v true = (live N v, live N v)
  /\ snd (from_std N 0 taken (live N v) true true []) = l /\ l <> live N v.
Proof.
  exists (fun _ => 0), (Vec N [2] [1; 2] 2), [0; 0]. repeat split. discriminate.
Qed.
Print Assumptions C103_conversion_moves_refuted.
