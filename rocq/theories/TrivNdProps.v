(* C100: multidimensional vectors of trivial elements. *)
From Coq Require Import List Bool Arith Lia.
From Verif Require Import VecModel VecWorld VecSpec VecProofs VecRaw VecOps VecProps NdVecModel NdVecSpec NdVecProofs NdVecProps.
From Verif Require Import TrivModel TrivProofs TrivRun TrivNdModel TrivNdSpec TrivNdProofs.
Import ListNotations.

Section Props.
Context {V : Type}.
Notation mem := (@mem V).
Notation arr := (@arr V).

Lemma t_nrun_quiet : forall half ptrs ops (m : mem) v a, tvalid m v a -> nlegal_all ops a ->
  exists v' m', t_nrun never half ptrs ops v m = Some (nerrors ops a, v', m') /\ tvalid m' v' (nplay ops a).
Proof.
  intros half ptrs. induction ops as [|op ops IH]; intros m v a T L.
  - exists v, m. auto.
  - destruct L as [L1 L2]. cbn [t_nrun nerrors nplay]. pose proof (t_nexec_spec never half ptrs op m v a T L1) as P.
    destruct (t_nexec never half ptrs op v m) as [[v1 it] m1|[v1 it] m1|]; [| |contradiction].
    + destruct P as (a1 & R & T1 & _). unfold neffect in *. rewrite R in *. destruct (IH m1 v1 a1 T1 L2) as (v' & m' & E & T'). rewrite E. eauto.
    + destruct P as (a1 & T1 & [[R ->]|[N _]]); [|discriminate]. unfold neffect in *. rewrite R in *.
      destruct (IH m1 v1 a T1 L2) as (v' & m' & E & T'). rewrite E. eauto.
Qed.

(* C100: as C11, for elements that are copied with memcpy and moved with memmove: the
   vector is a list of slices; no memcpy is given overlapping ranges, nothing is
   read or written outside a block, and everything is freed, once *)
Theorem C100_slices_are_a_list : forall half ptrs d (ops : list (@nop V)), 0 < d -> nlegal_all ops (Arr (repeat 0 d) []) ->
  exists v m, t_nrun never half ptrs ops (nempty (S d)) mem0 = Some (nerrors ops (Arr (repeat 0 d) []), v, m) /\
    nsees m v (nplay ops (Arr (repeat 0 d) [])) /\
    exists m', t_ndestruct v m = Ok tt m' /\ forall b, blk m' b = None.
Proof.
  intros half ptrs d ops Hd L. destruct (t_nrun_quiet half ptrs ops mem0 _ _ (tvalid_empty d Hd) L) as (v & m & E & T).
  exists v, m. split; auto. split; [apply tvalid_sees; auto|]. eapply tvalid_destruct; eauto.
Qed.

(* vectors of trivial elements and of other elements go through the same states:
   the same blocks, capacities, extents and times, and the same elements *)
Theorem C100_as_other_elements : forall half ptrs d (ops : list (@nop V)), 0 < d -> nlegal_all ops (Arr (repeat 0 d) []) ->
  exists fl v m mt, nrun never never half ops (nempty (S d)) mem0 = Some (fl, v, m) /\
    t_nrun never half ptrs ops (nempty (S d)) mem0 = Some (fl, v, mt) /\ tick mt = tick m /\
    (forall b, blk m b = None <-> blk mt b = None) /\
    forall b k x, read m (Ref b k) = Some x -> read mt (Ref b k) = Some x.
Proof.
  intros half ptrs d ops Hd L.
  assert (K : forall ops v (m mt : mem) a, valid m v a -> Rel m mt -> nlegal_all ops a ->
    exists fl v' m' mt', nrun never never half ops v m = Some (fl, v', m') /\
      t_nrun never half ptrs ops v mt = Some (fl, v', mt') /\ Rel m' mt').
  { clear. induction ops as [|op ops IH]; intros v m mt a W R L.
    - exists [], v, m, mt. auto.
    - destruct L as [L1 L2]. cbn [nrun t_nrun]. pose proof (sim_nexec never half ptrs op v m mt a R (proj1 W)) as S.
      pose proof (nexec_spec never never half op m v a (proj1 W) (proj1 (proj2 W)) L1 (fun _ _ => eq_refl)) as P. unfold npost in P.
      change (nexec (fun _ => false) never half op v m) with (nexec never never half op v m) in S.
      destruct (nexec never never half op v m) as [[v1 it] m1|[v1 it] m1|]; [| |contradiction]; destruct S as (mt1 & -> & R1).
      + destruct P as (a1 & H & Af & _). unfold neffect in L2. rewrite H in L2.
        destruct (IH v1 m1 mt1 a1 (valid_after _ _ _ _ _ _ W Af) R1 L2) as (fl & v' & m' & mt' & E1 & E2 & R'). rewrite E1, E2. exists (false :: fl), v', m', mt'. auto.
      + destruct P as (a1 & Af & [[H ->]|[[[t X]|[t X]] _]]); [|discriminate|discriminate]. unfold neffect in L2. rewrite H in L2.
        destruct (IH v1 m1 mt1 a (valid_after _ _ _ _ _ _ W Af) R1 L2) as (fl & v' & m' & mt' & E1 & E2 & R'). rewrite E1, E2. exists (true :: fl), v', m', mt'. auto. }
  destruct (K ops (nempty (S d)) mem0 mem0 _ (valid_empty d Hd)) as (fl & v & m & mt & E1 & E2 & R); auto.
  { split; [auto|]. split; [auto|]. split; [intros b; exact I|auto]. }
  exists fl, v, m, mt. split; auto. split; auto. destruct R as (A & B & C & D). split; auto. split.
  - intros b. specialize (C b). destruct (blk m b), (blk mt b); split; intros; try discriminate; auto; contradiction.
  - intros b k x. apply rel_read. split; auto.
Qed.

(* the states reached when any allocations fail, from the default constructor or
   vector(extents, value), with slices of the vector itself pushed and inserted
   where the capacity suffices *)
Inductive t_nreach (nomem : nat -> bool) (half : nat) (ptrs : nat -> bool) : @nvec -> mem -> arr -> Prop :=
  | TN_empty d : 0 < d -> t_nreach nomem half ptrs (nempty (S d)) mem0 (Arr (repeat 0 d) [])
  | TN_make n r x v m : r <> [] -> n = 0 \/ vol r <> 0 -> t_nmake nomem (n :: r) (Ext x) mem0 = Ok v m ->
      t_nreach nomem half ptrs v m (shape_of (n :: r) (repeat x (vol (n :: r))))
  | TN_step v m a op v' it m' a' : t_nreach nomem half ptrs v m a -> nlegal a op ->
      t_nexec nomem half ptrs op v m = Ok (v', it) m' \/ t_nexec nomem half ptrs op v m = Exc (v', it) m' ->
      nsees m' v' a' -> t_nreach nomem half ptrs v' m' a'
  | TN_push v m a k v' m' a' : t_nreach nomem half ptrs v m a -> k < length (slices a) ->
      total_size v + vol (sub a) <= cap (nraw v) -> t_npush_own nomem half v k m = Ok v' m' ->
      nsees m' v' a' -> t_nreach nomem half ptrs v' m' a'
  | TN_insert v m a p n k v' it m' a' : t_nreach nomem half ptrs v m a -> p <= length (slices a) -> k < length (slices a) ->
      total_size v + n * vol (sub a) <= cap (nraw v) -> t_ninsert_own nomem half v p n k m = Ok (v', it) m' ->
      nsees m' v' a' -> t_nreach nomem half ptrs v' m' a'.

Lemma total_flat : forall (m : mem) v a, tvalid m v a -> total_size v = length (flat a).
Proof.
  intros m v a T. pose proof (tvalid_descs _ _ _ T) as D. destruct v as [r ds]. cbn [descs] in D. subst ds.
  rewrite total_init, flat_len; auto. eapply tvalid_wf; eauto.
Qed.
Lemma t_nreach_valid : forall nomem half ptrs v m a, t_nreach nomem half ptrs v m a -> tvalid m v a.
Proof.
  intros nomem half ptrs v m a R.
  induction R as [d Hd|n r x v m Hr Hn E|v m a op v' it m' a' R IH L E S|v m a k v' m' a' R IH Lk C E S|v m a p n k v' it m' a' R IH Lp Lk C E S].
  - apply tvalid_empty; auto.
  - eapply tvalid_make; eauto.
  - pose proof (t_nexec_spec nomem half ptrs op m v a IH L) as P. destruct E as [E|E]; rewrite E in P.
    + destruct P as (a1 & _ & T & _). rewrite (nsees_det _ _ _ _ S (tvalid_sees _ _ _ T)). auto.
    + destruct P as (a1 & T & _). rewrite (nsees_det _ _ _ _ S (tvalid_sees _ _ _ T)). auto.
  - rewrite (total_flat _ _ _ IH) in C. destruct (nth_error (slices a) k) as [s|] eqn:Hs; [|apply nth_error_None in Hs; lia].
    destruct (push_own nomem half m v a k s IH Hs C) as (v1 & m1 & E1 & T1). rewrite E in E1. injection E1 as -> ->.
    rewrite (nsees_det _ _ _ _ S (tvalid_sees _ _ _ T1)). auto.
  - rewrite (total_flat _ _ _ IH) in C. destruct (Nat.eq_dec n 0) as [->|Hn].
    + unfold t_ninsert_own, t_ninsert in E. destruct (_ <? _) in E; [discriminate|]. cbn [Nat.eqb] in E. injection E as -> _ ->.
      rewrite (nsees_det _ _ _ _ S (tvalid_sees _ _ _ IH)). auto.
    + destruct (ninserted a p n k) as [s|] eqn:Hs.
      * destruct (insert_own nomem half m v a p n k s IH Lp Lk ltac:(lia) Hs C) as (v1 & m1 & E1 & T1). rewrite E in E1. injection E1 as -> _ ->.
        rewrite (nsees_det _ _ _ _ S (tvalid_sees _ _ _ T1)). auto.
      * unfold ninserted in Hs. destruct (Nat.ltb_spec k p); [apply nth_error_None in Hs; lia|].
        destruct (Nat.ltb_spec k (p + n)); [|apply nth_error_None in Hs; lia].
        rewrite (insert_own_gap nomem half m v a p n k IH) in E by lia. discriminate.
Qed.

(* nothing undefined happens and nothing leaks, even when an insertion finds no
   memory (for other elements it leaks, C11): an operation returns having done its
   work, or reports an error of its own having changed nothing, or its allocation
   failed - then no element changed, but an insertion forgot all slices *)
Theorem C100_any_allocation_fails : forall nomem half ptrs v m a, t_nreach nomem half ptrs v m a ->
  nsees m v a /\
  (exists m', t_ndestruct v m = Ok tt m' /\ forall b, blk m' b = None) /\
  forall op, nlegal a op ->
    match t_nexec nomem half ptrs op v m with
    | Ok (v', it) m' => exists a', nresult op a = Some a' /\ nsees m' v' a' /\
        match returned op a with Some k => it = Some (k * vol (sub a')) | None => True end
    | Exc (v', _) m' => exists a', ((nresult op a = None /\ a' = a) \/ (nomem (tick m) = true /\ a' = nstarved op a)) /\ nsees m' v' a'
    | Bad => False
    end.
Proof.
  intros nomem half ptrs v m a R. pose proof (t_nreach_valid _ _ _ _ _ _ R) as T.
  split; [apply tvalid_sees; auto|]. split; [eapply tvalid_destruct; eauto|]. intros op L.
  pose proof (t_nexec_spec nomem half ptrs op m v a T L) as P.
  destruct (t_nexec nomem half ptrs op v m) as [[v' it] m'|[v' it] m'|]; auto.
  - destruct P as (a' & H & T' & It). exists a'. split; auto. split; auto. apply tvalid_sees; auto.
  - destruct P as (a' & T' & H). exists a'. split; auto. apply tvalid_sees; auto.
Qed.

(* v.push_back(v[k]) within the capacity appends a copy of the slice *)
Theorem C100_push_back_own_slice : forall nomem half ptrs v m a k s, t_nreach nomem half ptrs v m a ->
  nth_error (slices a) k = Some s -> total_size v + vol (sub a) <= cap (nraw v) ->
  exists v' m', t_npush_own nomem half v k m = Ok v' m' /\ nsees m' v' (Arr (sub a) (slices a ++ [s])).
Proof.
  intros nomem half ptrs v m a k s R Hk C. pose proof (t_nreach_valid _ _ _ _ _ _ R) as T. rewrite (total_flat _ _ _ T) in C.
  destruct (push_own nomem half m v a k s T Hk C) as (v' & m' & E & T'). exists v', m'. split; auto. apply tvalid_sees; auto.
Qed.

(* v.insert(v.begin() + p, n, v[k]) within the capacity: a slice before p is
   inserted as expected; a slice that moves beyond the gap is read in its old place,
   so that the slice n places before it is inserted; a slice in the gap is copied
   onto itself with memcpy, which is undefined *)
Theorem C100_insert_own_slice : forall nomem half ptrs v m a p n k, t_nreach nomem half ptrs v m a ->
  p <= length (slices a) -> k < length (slices a) -> 0 < n -> total_size v + n * vol (sub a) <= cap (nraw v) ->
  match ninserted a p n k with
  | Some s => exists v' m', t_ninsert_own nomem half v p n k m = Ok (v', p * vol (sub a)) m' /\
      nsees m' v' (Arr (sub a) (insert_at p (repeat s n) (slices a)))
  | None => p <= k < p + n /\ t_ninsert_own nomem half v p n k m = Bad
  end.
Proof.
  intros nomem half ptrs v m a p n k R Lp Lk Ln C. pose proof (t_nreach_valid _ _ _ _ _ _ R) as T. rewrite (total_flat _ _ _ T) in C.
  destruct (ninserted a p n k) as [s|] eqn:Hs.
  - destruct (insert_own nomem half m v a p n k s T Lp Lk Ln Hs C) as (v' & m' & E & T'). exists v', m'. split; auto. apply tvalid_sees; auto.
  - unfold ninserted in Hs. destruct (Nat.ltb_spec k p); [apply nth_error_None in Hs; lia|].
    destruct (Nat.ltb_spec k (p + n)); [|apply nth_error_None in Hs; lia]. split; [lia|]. eapply insert_own_gap; eauto.
Qed.

(* when the vector has to grow, the slice is read after its block was freed *)
Theorem C100_own_slice_full : forall nomem half ptrs v m a p n k, t_nreach nomem half ptrs v m a ->
  p <= length (slices a) -> k < length (slices a) -> nomem (tick m) = false ->
  (cap (nraw v) < total_size v + vol (sub a) -> t_npush_own nomem half v k m = Bad) /\
  (0 < n -> cap (nraw v) < total_size v + n * vol (sub a) -> t_ninsert_own nomem half v p n k m = Bad).
Proof.
  intros nomem half ptrs v m a p n k R Lp Lk N. pose proof (t_nreach_valid _ _ _ _ _ _ R) as T. rewrite (total_flat _ _ _ T).
  split; [intros; eapply push_own_freed|intros; eapply insert_own_freed]; eauto.
Qed.
End Props.
Print Assumptions C100_slices_are_a_list.
Print Assumptions C100_as_other_elements.
Print Assumptions C100_any_allocation_fails.
Print Assumptions C100_push_back_own_slice.
Print Assumptions C100_insert_own_slice.
Print Assumptions C100_own_slice_full.

(* inserting v[2] of three rows in front inserts v[1], silently; inserting v[0] in
   front is undefined even though there is room *)
Definition rows : list (@nop nat) := [NPush [2] [1; 2]; NPush [2] [3; 4]; NPush [2] [5; 6]; NReserve 20].
Lemma rows_reached : exists v m, t_nrun never 100 never rows (nempty 2) mem0 = Some ([false; false; false; false], v, m) /\
  cap (nraw v) = 20 /\ total_size v = 6 /\ t_nreach never 100 never v m (Arr [2] [[1; 2]; [3; 4]; [5; 6]]).
Proof.
  assert (K : forall ops (v : nvec) (m : @mem nat) a, t_nreach never 100 never v m a -> nlegal_all ops a ->
    Forall (fun op => exists a', nresult op a = Some a') (firstn 1 ops) ->
    match ops with
    | op :: _ => exists v1 it m1 a1, t_nexec never 100 never op v m = Ok (v1, it) m1 /\ nresult op a = Some a1 /\ t_nreach never 100 never v1 m1 a1
    | [] => True
    end).
  { intros [|op ops] v m a R L F; auto. destruct L as [L1 _]. cbn [firstn] in F. inversion F as [|? ? [a1 H] _]; subst.
    pose proof (t_nexec_spec never 100 never op m v a (t_nreach_valid _ _ _ _ _ _ R) L1) as P.
    destruct (t_nexec never 100 never op v m) as [[v1 it] m1|[v1 it] m1|] eqn:E; [| |contradiction].
    - destruct P as (a2 & H2 & T & _). rewrite H in H2. injection H2 as <-. exists v1, it, m1, a1. split; auto. split; auto.
      eapply TN_step; eauto. apply tvalid_sees; auto.
    - destruct P as (a2 & _ & [[H2 _]|[N _]]); [congruence|discriminate]. }
  assert (L : nlegal_all rows (Arr [0] [])).
  { repeat split; cbn; try constructor; cbn; try lia; try discriminate; auto. }
  destruct (K rows _ _ _ (TN_empty never 100 never 1 ltac:(lia)) L) as (v1 & i1 & m1 & a1 & E1 & H1 & R1).
  { repeat constructor. eexists; reflexivity. }
  injection H1 as <-. destruct L as [_ L].
  destruct (K _ _ _ _ R1 L) as (v2 & i2 & m2 & a2 & E2 & H2 & R2). { repeat constructor. eexists; reflexivity. }
  injection H2 as <-. destruct L as [_ L].
  destruct (K _ _ _ _ R2 L) as (v3 & i3 & m3 & a3 & E3 & H3 & R3). { repeat constructor. eexists; reflexivity. }
  injection H3 as <-. destruct L as [_ L].
  destruct (K _ _ _ _ R3 L) as (v4 & i4 & m4 & a4 & E4 & H4 & R4). { repeat constructor. eexists; reflexivity. }
  injection H4 as <-. exists v4, m4. cbn [rows t_nrun]. rewrite E1, E2, E3, E4. split; auto.
  injection E1 as <- _ <-. vm_compute in E2. injection E2 as <- _ <-. vm_compute in E3. injection E3 as <- _ <-.
  vm_compute in E4. injection E4 as <- _ <-. split; [reflexivity|]. split; [reflexivity|]. exact R4.
Qed.
Theorem C100_insert_own_slice_refuted : exists (v v' : nvec) (m m' : @mem nat) it,
  t_nreach never 100 never v m (Arr [2] [[1; 2]; [3; 4]; [5; 6]]) /\
  t_ninsert_own never 100 v 0 1 2 m = Ok (v', it) m' /\
  nsees m' v' (Arr [2] [[3; 4]; [1; 2]; [3; 4]; [5; 6]]) /\
  t_ninsert_own never 100 v 0 1 0 m = Bad.
Proof.
  destruct rows_reached as (v & m & _ & C & S & R).
  pose proof (C100_insert_own_slice never 100 never v m _ 0 1 2 R) as K. cbn [slices sub length vol ninserted Nat.ltb Nat.leb] in K.
  destruct K as (v' & m' & E & N); [lia|lia|lia|lia|].
  pose proof (C100_insert_own_slice never 100 never v m _ 0 1 0 R) as K. cbn [slices sub length vol ninserted Nat.ltb Nat.leb] in K.
  destruct K as (_ & B); [lia|lia|lia|lia|].
  exists v, v', m, m', (0 * (2 * 1)). auto.
Qed.
Print Assumptions C100_insert_own_slice_refuted.

(* ---- examples ---- *)
Example C100_example_legal : nlegal_all tour3 (Arr [0; 0] []).
Proof. exact C11_example_legal. Qed.
Definition shown (v : nvec) (m : @mem nat) : list nat * list (option nat) :=
  (extents v, match ptr (nraw v) with Some b => map (fun k => read m (Ref b k)) (seq 0 (total_size v)) | None => [] end).
Example C100_example_run : forall p, option_map (fun r => match r with (fl, v, m) => (fl, shown v m) end)
    (t_nrun never 100 (fun _ => p) [NPush [2; 2] [1; 2; 3; 4]; NPush [2; 2] [5; 6; 7; 8]; NPush [1; 4] [0; 0; 0; 0];
       NInsert 1 1 [2; 2] [9; 9; 9; 9]; NErase 0; NResize 3 7; NShrink; NCopy] (nempty 3) mem0) =
  Some ([false; false; true; false; false; false; false; false], ([3; 2; 2], map Some [9; 9; 9; 9; 5; 6; 7; 8; 7; 7; 7; 7])).
Proof. intros [|]; vm_compute; reflexivity. Qed.
(* the second allocation fails: the insertion throws and forgets the slices, but the
   block is freed in the end, unlike in C11_insert_out_of_memory_refuted *)
Example C100_example_starved : exists v m, t_nrun (at_ 3) 100 never [NAssign [1; 2] 7; NInsert 0 1 [2] [8; 9]] (nempty 2) mem0 = Some ([false; true], v, m) /\
  extents v = [0; 2] /\ exists m', t_ndestruct v m = Ok tt m'.
Proof. do 2 eexists. split; [vm_compute; reflexivity|]. split; [reflexivity|]. eexists. vm_compute. reflexivity. Qed.
